(* The states on which isap.c of the optimised ISAP-A-128A implementations calls its permutation. Proofs only: the proofs of OptProof.v once more,
   with the record of the device of OptProbe.v. *)
From Verif Require Import Base Prog Poly SpecPerm Words AsconProof Mem Vocab Vocab2 MemProof RefLib Sponge RefProof RefAead SpecFacts Trace.
From Verif Require Import Api ApiProof OptPerm OptRep OptPermProof OptIsap OptLanes OptProof VocabProbe VocabOptProbe ProbeProof OptImpl.
From Verif Require Spec RefIsap OptProbe.
Import Spec(xorp, xorz).
Open Scope N_scope.
Open Scope cm_scope.

Lemma logs_while {A} (I : nat -> A) (mm : nat -> mem) (ps : nat -> list N) (n fuel : nat) cond body a0 m0 a1 m1 p1 :
  (n < fuel)%nat ->
  (forall k, (k < n)%nat -> cond (I k) = true /\ exists qs, logs (body (I k)) (mm k) (I (S k)) (mm (S k)) qs /\ ps k ++ qs = ps (S k)) ->
  cond (I n) = false ->
  ps O = [] -> I O = a0 -> mm O = m0 -> I n = a1 -> mm n = m1 -> ps n = p1 ->
  logs (while_ fuel cond body a0) m0 a1 m1 p1.
Proof.
  intros Hf H Hc H0 <- <- <- <- <-.
  enough (G : exists qs, logs (while_ fuel cond body (I O)) (mm O) (I n) (mm n) qs /\ ps O ++ qs = ps n).
  { destruct G as (qs & G & E). rewrite H0 in E. cbn [app] in E. now rewrite <- E. }
  clear H0. revert I mm ps fuel Hf H Hc. induction n as [|n IH]; intros I mm ps fuel Hf H Hc; (destruct fuel as [|fl]; [lia|]); cbn [while_].
  - exists []. split; [|apply app_nil_r]. eapply logs_step; [apply runs_branch| |rewrite Hc; apply logs_ret].
    intros s z s' E. destruct (silent_branch _ _ _ _ E) as (qs & E1 & _ & ->). eauto.
  - destruct (H O ltac:(lia)) as (Hc0 & q0 & R0 & E0).
    destruct (IH (fun k => I (S k)) (fun k => mm (S k)) (fun k => ps (S k)) fl) as (q1 & R1 & E1); auto; try lia.
    { intros k Hk. apply H. lia. }
    exists (q0 ++ q1). split; [|now rewrite app_assoc, E0].
    eapply logs_step; [apply runs_branch| |rewrite Hc0; eapply logs_bind; [exact R0|exact R1|reflexivity]].
    intros s z s' E. destruct (silent_branch _ _ _ _ E) as (qs & E2 & _ & ->). eauto.
Qed.

Lemma absorb_in_app I s x y :
  absorb_in I s (x ++ y) = absorb_in I s x ++ absorb_in I (fold_left (fun s b => Spec.i_perm I (Spec.i_sH I) (xorp s b)) x s) y.
Proof. revert s; induction x as [|b x IH]; intros s; cbn [absorb_in app fold_left]; [reflexivity|]. now rewrite IH. Qed.

Lemma silent_load_word a cf p : silent (load_word a cf p).
Proof. apply silent_bind; [apply silent_load_ull|]. intros. apply silent_ret. Qed.
Lemma silent_store_ull cf p v : silent (RefIsap.store_ull cf p v).
Proof. apply silent_storen. Qed.
Lemma silent_put_lane p v : silent (put_lane p v).
Proof. apply silent_bind; [apply silent_wr|]. intros. apply silent_stores_. Qed.

Section OptProbeProof.
  Variables (f : nat -> nat) (a : asconp) (rs : list nat) (cf : cfg) (leak : state -> N).
  Hypothesis Ha : ap_ok f a rs.
  Hypothesis Hr12 : In 12%nat rs.
  Hypothesis Hr1 : In 1%nat rs.
  Hypothesis Hr6 : In 6%nat rs.
  Hypothesis Hcal : forall i, (i < 4)%nat -> al8 cf (P i 0).
  Notation note := (OptProbe.record leak).
  Notation sn := (seen (fun s => leak (held a s))).

  Lemma held_stf s : wf40 s -> held a s = stf f s.
  Proof.
    intros W. unfold held, stf, lanes. rewrite !map_map. apply map_ext_in. intros b Hb.
    assert (B : bytes b /\ length b = 8%nat).
    { destruct W as [L B]. rewrite chunks8_40 in Hb by auto.
      repeat (destruct Hb as [<-|Hb]; [split; [now apply bytes_firstn, bytes_skipn|rewrite firstn_length, skipn_length; lia]|]). destruct Hb. }
    destruct B as [B L]. rewrite (ap_in f a rs Ha).
    - now rewrite word_le_le_word.
    - pose proof (le_word_lt b B) as H. now rewrite L in H.
  Qed.

  Notation r_load_word_at := (OptProof.r_load_word_at f a rs cf Ha Hcal).

  Lemma l_perm r s (m : mem) : In r rs -> wf40 s ->
    logs (OptProbe.perm a note (N.of_nat r) (stf f s)) m (stf f (ascon_p r s)) m (sn [(s, r)]).
  Proof.
    intros Hr W t. unfold OptProbe.perm, OptProbe.record, bind, emit. cbn [smem strc]. unfold ret.
    rewrite (stf_perm f a rs) by auto. eexists. split; [reflexivity|].
    rewrite !perms_cons, <- app_assoc. cbn [seen map concat fst snd app]. now rewrite held_stf.
  Qed.
  Lemma l_sH s (m : mem) : wf40 s -> logs (OptProbe.P_sH a note (stf f s)) m (stf f (ascon_p 12 s)) m (sn [(s, 12%nat)]).
  Proof. intros W. now apply (l_perm 12). Qed.
  Lemma l_sB s (m : mem) : wf40 s -> logs (OptProbe.P_sB a note (stf f s)) m (stf f (ascon_p 1 s)) m (sn [(s, 1%nat)]).
  Proof. intros W. now apply (l_perm 1). Qed.
  Lemma l_sE s (m : mem) : wf40 s -> logs (OptProbe.P_sE a note (stf f s)) m (stf f (ascon_p 6 s)) m (sn [(s, 6%nat)]).
  Proof. intros W. now apply (l_perm 6). Qed.

  Lemma absorb_in_snoc s x b : absorb_in IA s (x ++ [b]) = absorb_in IA s x ++ [(xorp (absA s x) b, 12%nat)].
  Proof. rewrite absorb_in_app. reflexivity. Qed.

  Lemma l_absorb m src x s : wf40 s -> has m src x -> bytes x -> N.of_nat (length x) < 2 ^ 64 -> al8 cf src ->
    logs (OptProbe.ABSORB_LANES a cf note (stf f s) src (N.of_nat (length x))) m (stf f (absA s (chunks 8 (Spec.pad 8 x)))) m
      (sn (absorb_in IA s (chunks 8 (Spec.pad 8 x)))).
  Proof.
    intros W Hx Bx Lx Al. unfold OptProbe.ABSORB_LANES.
    set (q := (length x / 8)%nat).
    assert (Wk : forall k, wf40 (absA s (chunks 8 (firstn (8 * k) x)))).
    { intros k. apply wf_absA; auto. apply chunks_Forall. now apply bytes_firstn. }
    set (y := skipn (8 * q) x).
    assert (Ly : length y = (length x mod 8)%nat) by (unfold y, q; rewrite skipn_length; lia).
    assert (By : bytes y) by now apply bytes_skipn.
    set (s1 := absA s (chunks 8 (firstn (8 * q) x))) in *.
    assert (W1 : wf40 s1) by apply Wk.
    assert (Fin : absA s (chunks 8 (Spec.pad 8 x)) = ascon_p 12 (xorp s1 (y ++ [0x80]))).
    { rewrite pad_chunks. fold q. fold y. unfold absA. rewrite fold_left_app. cbn [fold_left]. unfold absorb1 at 1. f_equal.
      change (fold_left _ (chunks 8 (firstn (8 * q) x)) s) with s1.
      change (0x80 :: repeat 0 (7 - length y)) with ([0x80] ++ repeat 0 (7 - length y)).
      now rewrite app_assoc, xorp_zeros. }
    rewrite Fin.
    assert (Elog : sn (absorb_in IA s (chunks 8 (Spec.pad 8 x))) =
      sn (absorb_in IA s (chunks 8 (firstn (8 * q) x))) ++ sn [(xorp s1 (y ++ [0x80]), 12%nat)]).
    { rewrite <- seen_app. f_equal. rewrite pad_chunks. fold q. fold y. rewrite absorb_in_snoc. fold s1.
      change (0x80 :: repeat 0 (7 - length y)) with ([0x80] ++ repeat 0 (7 - length y)).
      now rewrite app_assoc, xorp_zeros. }
    rewrite Elog. clear Elog.
    eapply logs_bind; [|cbv beta|reflexivity].
    { apply (logs_while (fun k => (stf f (absA s (chunks 8 (firstn (8 * k) x))), padd src (N.of_nat (8 * k)), N.of_nat (length x - 8 * k)))
                        (fun _ => m) (fun k => sn (absorb_in IA s (chunks 8 (firstn (8 * k) x)))) q) with (a1 := (stf f s1, padd src (N.of_nat (8 * q)), N.of_nat (length y))) (m1 := m).
      - unfold q. lia.
      - intros k Hk. cbn [snd]. split; [unfold q in Hk; lia|]. unfold OptProbe.absorb_full.
        rewrite padd_padd, N.add_0_r.
        set (b := firstn 8 (skipn (8 * k) x)).
        assert (Lb : length b = 8%nat) by (unfold b; rewrite firstn_length, skipn_length; unfold q in Hk; lia).
        assert (Bb : bytes b) by now apply bytes_firstn, bytes_skipn.
        exists (sn [(xorp (absA s (chunks 8 (firstn (8 * k) x))) b, 12%nat)]). split.
        2:{ rewrite <- seen_app. f_equal. rewrite chunks_firstn_S by (unfold q in Hk; lia). fold b. now rewrite absorb_in_snoc. }
        eapply logs_step; [apply (r_load_word_at m src (8 * k) x); auto; try (unfold q in Hk; lia)|apply silent_load_word|]. fold b.
        rewrite <- (blk_word_full b) by auto. rewrite stf_xor by (auto; lia).
        eapply logs_last; [apply l_sH; now apply wf40_xorp| |apply silent_ret].
        eapply runs_eq; [apply runs_ret| |reflexivity].
        rewrite chunks_firstn_S by (unfold q in Hk; lia). fold b. unfold absA. rewrite fold_left_app. cbn [fold_left].
        unfold absorb1 at 2. rewrite padd_padd. rewrite sub64_small by (unfold q in Hk; lia).
        repeat f_equal; unfold q in Hk; lia.
      - cbn [snd]. unfold q. lia.
      - reflexivity.
      - rewrite Nat.mul_0_r. change (firstn 0 x) with (@nil N). rewrite chunks_nil.
        change (N.of_nat 0) with 0. rewrite padd_0, Nat.sub_0_r. reflexivity.
      - reflexivity.
      - rewrite Ly. f_equal. unfold q. lia.
      - reflexivity.
      - reflexivity. }
    cbv beta iota. apply logs_if. destruct (N.ltb_spec 0 (N.of_nat (length y))) as [Hc|Hc].
    - eapply logs_step.
      { apply (runs_for (fun k => (blk_word (firstn k y), padd src (N.of_nat (8 * q + k)))) (fun _ => m))
          with (a1 := (blk_word y, padd src (N.of_nat (8 * q + length y)))) (m1 := m).
        - intros k Hk. rewrite Nat2N.id in Hk. eapply runs_bind.
          + apply runs_load. rewrite (Nat2N.inj_add (8 * q) k), <- padd_padd.
            apply (has_skipn m src x (8 * q) Hx). exact Hk.
          + eapply runs_eq; [apply runs_ret| |reflexivity].
            rewrite (firstn_snoc y k 0) by lia.
            rewrite <- (xor_b_snoc (firstn k y)).
            * rewrite firstn_length. rewrite padd_padd. fold y. repeat f_equal; lia.
            * now apply bytes_firstn.
            * now apply bytes_nth.
            * rewrite firstn_length. lia.
        - cbn [firstn]. rewrite Nat.add_0_r. reflexivity.
        - reflexivity.
        - rewrite Nat2N.id, firstn_all. reflexivity.
        - reflexivity. }
      { apply silent_for. intros i [u v]. apply silent_bind; [apply silent_load|]. intros. apply silent_ret. }
      cbn [fst]. cbv zeta.
      rewrite (xor_b_snoc y 0x80) by (auto; lia).
      assert (B80 : bytes (y ++ [0x80])) by (apply bytes_app; split; auto; repeat constructor).
      assert (L80 : (length (y ++ [0x80%N]) <= 8)%nat) by (rewrite app_length; cbn [length]; lia).
      rewrite (ap_tobi f a rs Ha) by now apply w64_blk.
      rewrite stf_xor by auto. apply l_sH. now apply wf40_xorp.
    - assert (E : y = []) by (destruct y; auto; cbn [length] in Hc; lia). rewrite E. cbn [app].
      rewrite (stf_top f a rs s1 true Ha W1). apply l_sH. apply wf40_xorp; auto. repeat constructor.
  Qed.

  Notation rk_fold := (fold_left (fun s b => ascon_p 1 (xorp s (Spec.first_bit b)))).

  Lemma l_isap_rk m k ivp y out outlen K iv Y :
    has m k K -> has m ivp iv -> (forall i, (i < 16)%nat -> runs (y (N.of_nat i)) m (nth i Y 0) m) -> (forall i, silent (y i)) ->
    length K = 16%nat -> length iv = 8%nat -> length Y = 16%nat -> bytes K -> bytes iv ->
    al8 cf k -> al8 cf ivp ->
    logs (OptProbe.isap_rk a cf note k ivp y out outlen) m (rk_out f out (rk_full K iv Y) outlen) m (sn (rk_in IA K iv Y)).
  Proof.
    intros Hk Hi Hy Sy LK Li LY BK Bi Alk Ali. unfold OptProbe.isap_rk.
    eapply logs_step; [apply (r_load_word_at m k 0 K); auto; lia|apply silent_load_word|].
    eapply logs_step; [apply (r_load_word_at m k 8 K); auto; lia|apply silent_load_word|].
    eapply logs_step; [apply (r_load_word_at m ivp 0 iv); auto; lia|apply silent_load_word|].
    rewrite (stf_init f) by auto.
    set (s0 := ascon_p 12 (Spec.zpad IA (K ++ iv))).
    assert (Wz : wf40 (Spec.zpad IA (K ++ iv))) by (apply wf_zpad40; [now apply bytes_app|rewrite app_length; lia]).
    assert (W0 : wf40 s0) by now apply wf40_ascon.
    set (bits := Spec.msb_bits Y).
    assert (Hb : length bits = 128%nat) by (unfold bits; rewrite msb_bits_length; lia).
    assert (Wj : forall j, wf40 (rk_fold (firstn j bits) s0)) by (intros; now apply wf_fold).
    set (s1 := xorp (rk_fold (firstn 127 bits) s0) (Spec.first_bit (nth 127 bits false))).
    assert (W1 : wf40 s1) by now apply wf_first_bit.
    assert (Elog : sn (rk_in IA K iv Y) =
      sn [(Spec.zpad IA (K ++ iv), 12%nat)] ++ sn (sB_in IA s0 (firstn 127 bits)) ++ sn [(s1, 12%nat)]).
    { rewrite <- !seen_app. f_equal.
      change (rk_in IA K iv Y) with ((Spec.zpad IA (K ++ iv), 12%nat) :: rk_steps IA s0 bits). cbn [app]. apply (f_equal (cons _)). rewrite <- (firstn_skipn 127 bits) at 1. rewrite (skipn_cons_nth bits 127 false) by lia.
      rewrite skipn_all2 by lia. exact (rk_steps_snoc _ _ _ _ _ (v_libok A128A cf) (v_macok A128A) s0 (firstn 127 bits) _ W0). }
    rewrite Elog. clear Elog.
    eapply logs_bind; [now apply (l_perm 12)| |reflexivity]. fold s0.
    set (ev := fun j => sn [(xorp (rk_fold (firstn j bits) s0) (Spec.first_bit (nth j bits false)), 1%nat)]).
    assert (Ev : forall j, (j < 128)%nat -> sn (sB_in IA s0 (firstn j bits)) ++ ev j = sn (sB_in IA s0 (firstn (S j) bits))).
    { intros j Hj. unfold ev. rewrite <- seen_app. f_equal. rewrite (firstn_snoc bits j false) by lia. now rewrite sB_in_snoc. }
    eapply logs_bind; [|cbv beta|reflexivity].
    { apply (logs_for (fun i => if (i =? 16)%nat then (stf f s1, 15) else (stf f (rk_fold (firstn (8 * i) bits) s0), N.of_nat i))
                      (fun _ => m) (fun i => sn (sB_in IA s0 (firstn (if (i =? 16)%nat then 127 else 8 * i) bits)))) with (a1 := (stf f s1, 15)) (m1 := m); try reflexivity.
      change (N.to_nat 16) with 16%nat. intros i Hi16.
      replace (i =? 16)%nat with false by lia.
      assert (St : forall j, (j < 8)%nat -> (8 * i + j < 127)%nat ->
        logs (OptProbe.P_sB a note (stf f (xorp (rk_fold (firstn (8 * i + j) bits) s0) (Spec.first_bit (N.testbit (nth i Y 0) (7 - N.of_nat j)))))) m
             (stf f (rk_fold (firstn (8 * i + S j) bits) s0)) m (ev (8 * i + j)%nat)).
      { intros j Hj Hl.
        assert (Eb : N.testbit (nth i Y 0) (7 - N.of_nat j) = nth (8 * i + j) bits false).
        { unfold bits. rewrite nth_msb_bits by lia. replace ((8 * i + j) / 8)%nat with i by lia. f_equal. lia. }
        rewrite Eb. eapply logs_eq; [apply l_sB; now apply wf_first_bit| |reflexivity|reflexivity].
        rewrite Nat.add_succ_r. rewrite (firstn_snoc bits (8 * i + j) false) by lia. rewrite fold_left_app. reflexivity. }
      set (q := ev (8 * i + 0)%nat ++ ev (8 * i + 1)%nat ++ ev (8 * i + 2)%nat ++ ev (8 * i + 3)%nat ++ ev (8 * i + 4)%nat ++ ev (8 * i + 5)%nat ++
                ev (8 * i + 6)%nat ++ if (S i =? 16)%nat then [] else ev (8 * i + 7)%nat).
      exists q. split.
      2:{ unfold q. rewrite !app_assoc. rewrite <- (Nat.add_0_r (8 * i)) at 1.
          rewrite !Ev, <- !Nat.add_succ_r, !Ev, <- !Nat.add_succ_r by lia.
          rewrite Ev, <- !Nat.add_succ_r by lia. rewrite Ev, <- !Nat.add_succ_r by lia. rewrite Ev, <- !Nat.add_succ_r by lia.
          rewrite Ev, <- !Nat.add_succ_r by lia. rewrite Ev, <- !Nat.add_succ_r by lia.
          destruct (Nat.eqb_spec (S i) 16).
          - rewrite app_nil_r. do 3 f_equal. lia.
          - rewrite Ev by lia. do 3 f_equal. lia. }
      unfold q.
      eapply logs_step; [now apply Hy|apply Sy|].
      rewrite <- (Nat.add_0_r (8 * i)) at 1.
      eapply logs_bind; [rewrite (rk_bit_stf f a rs Ha _ _ 7) by (auto; lia); apply (St 0%nat); lia| |reflexivity].
      eapply logs_bind; [rewrite (rk_bit_stf f a rs Ha _ _ 6) by (auto; lia); apply (St 1%nat); lia| |reflexivity].
      eapply logs_bind; [rewrite (rk_bit_stf f a rs Ha _ _ 5) by (auto; lia); apply (St 2%nat); lia| |reflexivity].
      eapply logs_bind; [rewrite (rk_bit_stf f a rs Ha _ _ 4) by (auto; lia); apply (St 3%nat); lia| |reflexivity].
      eapply logs_bind; [rewrite (rk_bit_stf f a rs Ha _ _ 3) by (auto; lia); apply (St 4%nat); lia| |reflexivity].
      eapply logs_bind; [rewrite (rk_bit_stf f a rs Ha _ _ 2) by (auto; lia); apply (St 5%nat); lia| |reflexivity].
      eapply logs_bind; [rewrite (rk_bit_stf f a rs Ha _ _ 1) by (auto; lia); apply (St 6%nat); lia| |reflexivity].
      rewrite (rk_bit_stf f a rs Ha _ _ 0) by (auto; lia).
      apply logs_if. destruct (N.eqb_spec (N.of_nat i) 15) as [E|E]; cbn [negb].
      - replace (S i =? 16)%nat with true by lia. replace i with 15%nat by lia.
        eapply logs_eq; [apply logs_ret| |reflexivity|reflexivity]. unfold s1.
        assert (Eb : nth 127 bits false = N.testbit (nth 15 Y 0) 0) by (unfold bits; rewrite nth_msb_bits by lia; reflexivity).
        rewrite Eb. reflexivity.
      - replace (S i =? 16)%nat with false by lia. eapply logs_last.
        + apply (St 7%nat); lia.
        + eapply runs_eq; [apply runs_ret| |reflexivity]. do 3 f_equal; [f_equal; lia|lia].
        + apply silent_ret. }
    cbn [fst].
    eapply logs_last; [apply (l_perm 12); auto| |].
    2:{ apply calls_if; intros _; apply silent_ret. }
    unfold rk_out. rewrite rk_full_eq by auto. fold s0. fold bits. fold s1. cbv zeta.
    apply runs_if. destruct (16 <? outlen); apply runs_ret.
  Qed.

  Lemma l_mac_state m npub ad c Nn A C : has m npub Nn -> has m ad A -> has m c C -> has m RefIsap.ISAP_IV_A (Spec.iv_A IA) ->
    length Nn = 16%nat -> bytes Nn -> bytes A -> bytes C -> N.of_nat (length A) < 2 ^ 64 -> N.of_nat (length C) < 2 ^ 64 ->
    al8 cf npub -> al8 cf ad -> al8 cf c ->
    logs (OptProbe.mac_state a cf note npub ad (N.of_nat (length A)) c (N.of_nat (length C))) m (stf f (mac_st Nn A C)) m (sn (hash_in IA Nn A C)).
  Proof.
    intros Hn HA HC HI LN BN BA BC La Lc Aln Ala Alc. unfold OptProbe.mac_state.
    assert (Bi : bytes (Spec.iv_A IA)) by (apply bytes_ivA; lia).
    eapply logs_step; [apply (r_load_word_at m npub 0 Nn); auto; lia|apply silent_load_word|].
    eapply logs_step; [apply (r_load_word_at m npub 8 Nn); auto; lia|apply silent_load_word|].
    eapply logs_step; [apply (r_load_word_at m RefIsap.ISAP_IV_A 0 (Spec.iv_A IA)); auto; try reflexivity; try (cbn [Spec.iv_A Spec.iv length]; lia); apply Hcal; lia|apply silent_load_word|].
    rewrite (stf_init f) by auto.
    assert (Wz : wf40 (Spec.zpad IA (Nn ++ Spec.iv_A IA))).
    { apply wf_zpad40; [now apply bytes_app|rewrite app_length; cbn [Spec.iv_A Spec.iv length]; lia]. }
    set (s1 := ascon_p 12 (Spec.zpad IA (Nn ++ Spec.iv_A IA))). assert (W1 : wf40 s1) by now apply wf40_ascon.
    set (s2 := absA s1 (chunks 8 (Spec.pad 8 A))). assert (W2 : wf40 s2) by (apply wf_absA; auto; now apply chunks_Forall, bytes_pad).
    assert (Elog : sn (hash_in IA Nn A C) = sn [(Spec.zpad IA (Nn ++ Spec.iv_A IA), 12%nat)] ++ sn (absorb_in IA s1 (chunks 8 (Spec.pad 8 A))) ++
      sn (absorb_in IA (Spec.dom_sep IA s2) (chunks 8 (Spec.pad 8 C)))).
    { rewrite <- !seen_app. reflexivity. }
    rewrite Elog. clear Elog.
    eapply logs_bind; [now apply l_sH| |reflexivity]. fold s1.
    eapply logs_bind; [now apply l_absorb| |reflexivity]. fold s2.
    rewrite (stf_dom f a rs) by auto. apply l_absorb; auto.
    apply wf40_xorp; auto. apply bytes_app. split; [apply bytes_repeat; lia|repeat constructor].
  Qed.

  Lemma l_mac_tag m k tag K s : has m k K -> length K = 16%nat -> bytes K -> has m RefIsap.ISAP_IV_KA (Spec.iv_KA IA) ->
    wf40 s -> room m tag 16 -> al8 cf k ->
    logs (OptProbe.mac_tag a cf note k (stf f s) tag) m tt
      (putp m tag (firstn 16 (ascon_p 12 (firstn 16 (rk_full K (Spec.iv_KA IA) (firstn 16 s)) ++ skipn 16 s))))
      (sn (rk_in IA K (Spec.iv_KA IA) (firstn 16 s) ++ [(Spec.isap_rk IA K (Spec.iv_KA IA) (firstn 16 s) 16 ++ skipn 16 s, 12%nat)])).
  Proof.
    intros Hk LK BK HI W Ht Alk. unfold OptProbe.mac_tag. rewrite seen_app.
    assert (Bi : bytes (Spec.iv_KA IA)) by (apply bytes_ivA; lia).
    set (s' := setx (setx (stf f s) 0 (WORDTOU64 a (getx (stf f s) 0))) 1
                (WORDTOU64 a (getx (setx (stf f s) 0 (WORDTOU64 a (getx (stf f s) 0))) 1))).
    pose proof (stf_length f s W) as L5.
    assert (G0 : getx s' 0 = WORDTOU64 a (getx (stf f s) 0)).
    { unfold s', getx, setx. rewrite !nth_upd_nth, !upd_nth_length, L5. reflexivity. }
    assert (G1 : getx s' 1 = WORDTOU64 a (getx (stf f s) 1)).
    { unfold s', getx, setx. rewrite !nth_upd_nth, !upd_nth_length, L5. reflexivity. }
    set (R := rk_full K (Spec.iv_KA IA) (firstn 16 s)).
    assert (Ly : length (firstn 16 s) = 16%nat) by (rewrite firstn_length, (proj1 W); reflexivity).
    assert (WR : wf40 R) by now apply wf_rk_full.
    eapply logs_bind; [|cbv beta|reflexivity].
    { apply (l_isap_rk m k RefIsap.ISAP_IV_KA _ s' RefIsap.CRYPTO_KEYBYTES K (Spec.iv_KA IA) (firstn 16 s)); auto.
      - intros i Hi. eapply runs_eq; [apply runs_ret| |reflexivity]. rewrite !Nat2N.id.
        rewrite nth_firstn_lt by lia.
        rewrite <- nth_word_le with (n := 8%nat) by lia.
        assert (Hd : (i / 8 = 0 \/ i / 8 = 1)%nat) by lia. destruct Hd as [E|E]; rewrite E.
        + rewrite G0, (proj1 (lane_out f a rs s 0 Ha W ltac:(lia))). unfold lane_bytes.
          rewrite nth_firstn_lt by lia. cbn [Nat.mul skipn]. f_equal. lia.
        + rewrite G1, (proj1 (lane_out f a rs s 1 Ha W ltac:(lia))). unfold lane_bytes.
          rewrite nth_firstn_lt by lia. rewrite nth_skipn_add. f_equal. lia.
      - intros. apply silent_ret.
      - apply Hcal. lia. }
    assert (E : rk_out f s' R RefIsap.CRYPTO_KEYBYTES = stf f (firstn 16 R ++ skipn 16 s)).
    { unfold rk_out, RefIsap.CRYPTO_KEYBYTES. replace (16 <? 16) with false by lia. cbv zeta.
      rewrite <- (firstn16_skipn16 f) by auto. pose proof (stf_length f R WR) as L5'.
      unfold s', getx, setx. apply list5_ext; rewrite ?nth_upd_nth, ?upd_nth_length, ?L5; reflexivity. }
    fold R. rewrite E.
    set (s2 := firstn 16 R ++ skipn 16 s).
    assert (W2 : wf40 s2).
    { split; [unfold s2; rewrite app_length, firstn_length, skipn_length, (proj1 WR), (proj1 W); reflexivity|].
      apply bytes_app. split; [apply bytes_firstn, WR|apply bytes_skipn, W]. }
    change (Spec.isap_rk IA K (Spec.iv_KA IA) (firstn 16 s) 16) with (firstn 16 R). fold s2.
    eapply logs_last; [now apply l_sH| |apply silent_bind; [apply silent_put_lane|intros; apply silent_put_lane]].
    set (s3 := ascon_p 12 s2). assert (W3 : wf40 s3) by now apply wf40_ascon.
    unfold put_lane.
    destruct (lane_out f a rs s3 0 Ha W3 ltac:(lia)) as [E0 _]. destruct (lane_out f a rs s3 1 Ha W3 ltac:(lia)) as [E1 _].
    rewrite E0, E1, padd_0.
    eapply runs_bind; [eapply runs_bind; [apply runs_emit|apply runs_stores_]|].
    { rewrite lane_bytes_length by (auto; lia). rewrite <- (padd_0 tag). change 0 with (N.of_nat 0). apply (room_sub m tag 16); auto; lia. }
    eapply runs_bind; [apply runs_emit|].
    assert (R8 : room m tag 8) by (rewrite <- (padd_0 tag); change 0 with (N.of_nat 0); apply (room_sub m tag 16); auto; lia).
    eapply runs_eq; [apply runs_stores_|reflexivity|].
    { apply room_putp; rewrite ?lane_bytes_length by (auto; lia); auto.
      change 8 with (N.of_nat 8) at 1. apply (room_sub m tag 16); auto; lia. }
    change 8 with (N.of_nat 8) at 1. rewrite <- (lane_bytes_length s3 0) at 1 by (auto; lia).
    assert (Ej : lane_bytes s3 0 ++ lane_bytes s3 1 = firstn 16 s3).
    { unfold lane_bytes. rewrite Nat.mul_0_r, Nat.mul_1_r. cbn [skipn].
      rewrite <- (firstn_skipn 8 (firstn 16 s3)). rewrite firstn_firstn. cbn [Nat.min]. f_equal. }
    rewrite putp_app_bytes; rewrite Ej; auto.
  Qed.

  Lemma opt_mac_log mm k npub ad c tag K Nn A C :
    consts_ok opt_consts mm -> bytes_at mm k K -> length K = 16%nat -> bytes_at mm npub Nn -> length Nn = 16%nat -> bytes_at mm ad A ->
    bytes_at mm c C -> N.of_nat (length A) < 2 ^ 64 -> N.of_nat (length C) < 2 ^ 64 -> room mm tag 16 ->
    al8 cf k -> al8 cf npub -> al8 cf ad -> al8 cf c ->
    logs (OptProbe.isap_mac a cf note k npub ad (N.of_nat (length A)) c (N.of_nat (length C)) tag) mm tt
         (putp mm tag (Spec.isap_mac IA K Nn A C)) (sn (mac_in IA K Nn A C)).
  Proof.
    intros Hc [BK Hk] LK [BN Hn] LN [BA HA] [BC HC] La Lc Rt Pk Pn Pa Pc.
    destruct (opt_ivs mm Hc) as (I1 & I2 & I3 & _).
    unfold OptProbe.isap_mac. unfold mac_in. rewrite seen_app.
    change (hash_end IA Nn A C) with (mac_st Nn A C).
    eapply logs_bind; [apply (l_mac_state mm npub ad c Nn A C); auto|cbv beta|reflexivity].
    rewrite mac_spec_eq. apply l_mac_tag; auto. now apply wf_mac_st.
  Qed.

  Notation est K Nn := (Spec.isap_rk IA K (Spec.iv_KE IA) Nn 24 ++ Nn).

  Lemma opt_enc_log junk mm k npub mp c K Nn T : length junk = 5%nat ->
    consts_ok opt_consts mm -> bytes_at mm k K -> length K = 16%nat -> bytes_at mm npub Nn -> length Nn = 16%nat -> bytes_at mm mp T ->
    N.of_nat (length T) < 2 ^ 64 -> (0 < length T)%nat -> room mm c (length T) -> fwd_ok c mp (length T) ->
    al8 cf k -> al8 cf npub -> al8 cf mp -> al8 cf c ->
    logs (OptProbe.isap_enc a cf junk note k npub mp (N.of_nat (length T)) c) mm tt (putp mm c (Spec.isap_enc IA K Nn T))
         (sn (enc_in IA K Nn (length T))).
  Proof.
    intros Hjunk Hc [BK Hk] LK [BN Hn] LN [BT HT] LT HT0 Rc Hf Pk Pn Pm Pc.
    destruct (opt_ivs mm Hc) as (I1 & I2 & I3 & _).
    unfold OptProbe.isap_enc.
    assert (Elog : enc_in IA K Nn (length T) = rk_in IA K (Spec.iv_KE IA) Nn ++ stream IA (est K Nn) ((length T + 8 - 1) / 8)).
    { unfold enc_in. replace (length T =? 0)%nat with false by lia. reflexivity. }
    rewrite Elog, seen_app. clear Elog.
    assert (Bi : bytes (Spec.iv_KE IA)) by (apply bytes_ivA; lia).
    eapply logs_bind; [|cbv beta|reflexivity].
    { apply (l_isap_rk mm k RefIsap.ISAP_IV_KE _ junk (40 - RefIsap.CRYPTO_NPUBBYTES) K (Spec.iv_KE IA) Nn); auto.
      - intros i Hi. apply runs_load. apply Hn. lia.
      - intros. apply silent_load.
      - apply Hcal. lia. }
    eapply logs_step; [apply (r_load_word_at mm npub 0 Nn); auto; lia|apply silent_load_word|].
    eapply logs_step; [apply (r_load_word_at mm npub 8 Nn); auto; lia|apply silent_load_word|].
    change (40 - RefIsap.CRYPTO_NPUBBYTES) with 24. rewrite (stf_enc f) by auto.
    set (s0 := est K Nn). pose proof (wf_est K Nn LK LN BK BN) as W0. fold s0 in W0.
    set (pE := ascon_p 6).
    assert (Wi : forall j, wf40 (iter pE j s0)).
    { intros j. apply iter_ok; auto. intros s. apply wf40_ascon. }
        set (ct := Spec.isap_enc IA K Nn T).
    assert (Lct : length ct = length T) by now apply (v_enc_length A128A).
    assert (Nct : forall i, (i < length T)%nat -> nth i ct 0 = N.lxor (nth i T 0) (nth (i mod 8) (iter pE (S (i / 8)) s0) 0)).
    { intros i Hi. exact (v_enc_nth A128A K Nn T i LK LN BK BN Hi). }
    assert (Rk : forall n, (n <= length T)%nat -> room mm c (length (firstn n ct))).
    { intros n Hnl i Hi. apply Rc. rewrite firstn_length in Hi. lia. }
    assert (Hrd : forall n j, (n <= length T)%nat -> (n + j <= length T)%nat ->
      has (putp mm c (firstn n ct)) (padd mp (N.of_nat n)) (firstn j (skipn n T))).
    { intros n j H1 H2. apply has_putp_disj; auto.
      - apply has_firstn. now apply has_skipn.
      - intros i i' Hi Hi'. rewrite firstn_length in Hi. rewrite padd_padd, <- Nat2N.inj_add. apply Hf.
        rewrite firstn_length, skipn_length in Hi'. lia. }
    set (q := (length T / 8)%nat).
    set (rest := sn (if (length T - 8 * q =? 0)%nat then [] else [(iter pE q s0, 6%nat)])).
    assert (Elog : sn (stream IA s0 ((length T + 8 - 1) / 8)) = sn (stream IA s0 q) ++ rest).
    { unfold rest. rewrite <- seen_app. f_equal. destruct (Nat.eqb_spec (length T - 8 * q) 0) as [E|E].
      - rewrite app_nil_r. f_equal. unfold q in *. lia.
      - replace ((length T + 8 - 1) / 8)%nat with (S q) by (unfold q in *; lia). rewrite stream_snoc. reflexivity. }
    rewrite Elog. clear Elog.
    eapply logs_bind; [|cbv beta|reflexivity].
    { apply (logs_while (fun j => (stf f (iter pE j s0), padd mp (N.of_nat (8 * j)), N.of_nat (length T - 8 * j), padd c (N.of_nat (8 * j))))
               (fun j => putp mm c (firstn (8 * j) ct)) (fun j => sn (stream IA s0 j)) q)
        with (a1 := (stf f (iter pE q s0), padd mp (N.of_nat (8 * q)), N.of_nat (length T - 8 * q), padd c (N.of_nat (8 * q))))
             (m1 := putp mm c (firstn (8 * q) ct)).
      - unfold q. lia.
      - intros j Hj. assert (Hj8 : (8 * j + 8 <= length T)%nat) by (unfold q in Hj; lia).
        cbn [snd fst]. split; [lia|]. unfold OptProbe.enc_full.
        exists (sn [(iter pE j s0, 6%nat)]). split.
        2:{ rewrite <- seen_app, stream_snoc. reflexivity. }
        eapply logs_last; [apply l_sE; apply Wi| |].
        2:{ apply silent_bind; [apply silent_load_ull|]. intros. apply silent_bind; [apply silent_store_ull|]. intros. apply silent_ret. }
        change (ascon_p 6 (iter pE j s0)) with (iter pE (S j) s0).
        set (tb := firstn 8 (skipn (8 * j) T)).
        assert (Lb : length tb = 8%nat) by (unfold tb; rewrite firstn_length, skipn_length; lia).
        assert (Bb : bytes tb) by now apply bytes_firstn, bytes_skipn.
        eapply runs_bind.
        { apply (runs_load_ull cf _ (le_word tb)).
          - rewrite word_le_le_word by auto. apply Hrd; lia.
          - apply al8_at; auto. lia.
          - pose proof (le_word_lt tb Bb) as H. now rewrite Lb in H. }
        eapply runs_bind.
        { apply runs_store_ull.
          - apply room_putp; [apply Rk; lia|]. apply (room_sub mm c (length T)); auto.
          - apply al8_at; auto. lia. }
        eapply runs_eq; [apply runs_ret| |].
        + rewrite !padd_padd, sub64_small by lia. repeat f_equal; lia.
        + rewrite word_le_xor, word_le_le_word by auto.
          rewrite (proj1 (lane_out f a rs (iter pE (S j) s0) 0 Ha (Wi (S j)) ltac:(lia))).
          assert (E : firstn (8 * S j) ct = firstn (8 * j) ct ++ xorz tb (lane_bytes (iter pE (S j) s0) 0)).
          { apply (nth_ext_le _ _ 0).
            - rewrite app_length, !firstn_length, xorz_length; rewrite ?lane_bytes_length by (auto; lia); lia.
            - intros i Hi. rewrite firstn_length in Hi. rewrite nth_firstn_lt by lia.
              destruct (Nat.ltb_spec i (8 * j)) as [Hlt|Hge].
              + rewrite app_nth1 by (rewrite firstn_length; lia). now rewrite nth_firstn_lt.
              + rewrite app_nth2 by (rewrite firstn_length; lia). rewrite firstn_length.
                rewrite xorz_nth by (rewrite lane_bytes_length by (auto; lia); lia).
                replace (Nat.min (8 * j) (length ct)) with (8 * j)%nat by lia.
                replace (i - 8 * j <? length tb)%nat with true by lia.
                rewrite Nct by lia. unfold tb, lane_bytes. rewrite !nth_firstn_lt by lia. rewrite nth_skipn_add.
                rewrite Nat.mul_0_r. cbn [skipn]. replace (i / 8)%nat with j by lia.
                f_equal; f_equal; lia. }
          rewrite E. rewrite <- putp_app_bytes.
          * rewrite firstn_length. do 2 f_equal. lia.
          * rewrite <- E. apply Rk. lia.
      - cbn [snd fst]. unfold q. lia.
      - reflexivity.
      - rewrite Nat.mul_0_r. change (N.of_nat 0) with 0. rewrite !padd_0, Nat.sub_0_r. reflexivity.
      - rewrite Nat.mul_0_r. change (firstn 0 ct) with (@nil N). apply putp_nil.
      - reflexivity.
      - reflexivity.
      - reflexivity. }
    cbv beta iota. apply logs_if.
    assert (Hq : (8 * q <= length T < 8 * q + 8)%nat) by (unfold q; lia).
    destruct (N.ltb_spec 0 (N.of_nat (length T - 8 * q))) as [Hlt|Hge].
    - unfold rest. replace (length T - 8 * q =? 0)%nat with false by lia.
      eapply logs_last; [apply l_sE; apply Wi| |].
      2:{ apply silent_bind; [|intros; apply silent_ret]. apply silent_for. intros i [u v]. apply silent_bind; [apply silent_load|]. intros.
          apply silent_bind; [apply silent_store|]. intros. apply silent_ret. }
      change (ascon_p 6 (iter pE q s0)) with (iter pE (S q) s0).
      eapply runs_bind; [|apply runs_ret].
      apply (runs_for (fun j => (padd mp (N.of_nat (8 * q + j)), padd c (N.of_nat (8 * q + j))))
               (fun j => putp mm c (firstn (8 * q + j) ct)))
        with (a1 := (padd mp (N.of_nat (length T)), padd c (N.of_nat (length T)))).
      + rewrite Nat2N.id. intros j Hj.
        eapply runs_bind.
        { apply runs_load. rewrite <- (padd_0 (padd mp _)). change 0 with (N.of_nat 0) at 1.
          apply (Hrd (8 * q + j)%nat 1%nat); try lia. rewrite firstn_length, skipn_length. lia. }
        eapply runs_bind.
        { apply runs_store1. rewrite inside_putp by (apply Rk; lia). apply Rc. lia. }
        eapply runs_eq; [apply runs_ret| |].
        * rewrite !padd_padd. repeat f_equal; lia.
        * rewrite Nat.add_succ_r. rewrite (firstn_snoc ct (8 * q + j) 0) by lia.
          rewrite <- putp_app_bytes.
          -- rewrite firstn_length. f_equal; [f_equal; lia|]. f_equal.
             rewrite Nct by lia. rewrite Nat2N.id. rewrite nth_firstn_lt, nth_skipn_add by lia.
             rewrite <- nth_word_le with (n := 8%nat) by lia.
             rewrite (proj1 (lane_out f a rs (iter pE (S q) s0) 0 Ha (Wi (S q)) ltac:(lia))). unfold lane_bytes.
             rewrite nth_firstn_lt by lia. rewrite Nat.mul_0_r. cbn [skipn]. replace ((8 * q + j) / 8)%nat with q by lia.
             f_equal; f_equal; lia.
          -- rewrite <- firstn_snoc by lia. apply Rk. lia.
      + rewrite Nat.add_0_r. reflexivity.
      + now rewrite Nat.add_0_r.
      + rewrite Nat2N.id. repeat f_equal; lia.
      + rewrite Nat2N.id. rewrite firstn_all2 by lia. reflexivity.
    - unfold rest. replace (length T - 8 * q =? 0)%nat with true by lia.
      eapply logs_eq; [apply logs_ret|reflexivity| |reflexivity]. rewrite firstn_all2 by lia. reflexivity.
  Qed.

End OptProbeProof.
