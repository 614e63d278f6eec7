(* The states on which isap.c of the Keccak opt_64 and avx512 implementations calls its permutation. Proofs only: the proofs of KIsapProof.v once
   more, with the record of the device of KProbe.v. *)
From Verif Require Import Base Prog Poly SpecPerm Words KeccakProof RefPerm Mem Vocab Vocab2 MemProof RefLib Sponge RefProof RefAead SpecFacts Trace.
From Verif Require Import Api ApiProof OptProof A128Proof KRound K64Perm K64PermProof KIsap KIsapProof VocabProbe ProbeProof OptProbeProof ApiProbe A128ProbeProof.
From Verif Require Spec RefIsap KProbe.
Import Spec(xorp, xorz, inst, i_sz, i_rate, i_sH, i_sB, i_sE, i_sK, i_perm).
Open Scope N_scope.
Open Scope cm_scope.

(* ---------- what is absorbed, split at the last block ---------- *)

Section Absorb.
  Variable I : inst.
  Lemma abin_snoc s x b : absorb_in I s (x ++ [b]) = absorb_in I s x ++ [(xorp (Spec.absorb I s x) b, i_sH I)].
  Proof. rewrite absorb_in_app. reflexivity. Qed.
  Lemma abin_last s x : let q := (length x / 18)%nat in
    absorb_in I s (chunks 18 (Spec.pad 18 x)) = absorb_in I s (chunks 18 (firstn (18 * q) x)) ++
      [(xorp (Spec.absorb I s (chunks 18 (firstn (18 * q) x))) (skipn (18 * q) x ++ [0x80]), i_sH I)].
  Proof.
    cbv zeta. rewrite padr_chunks by lia. set (q := (length x / 18)%nat). set (y := skipn (18 * q) x). rewrite abin_snoc.
    change (0x80 :: repeat 0 (18 - 1 - length y)) with ([0x80] ++ repeat 0 (18 - 1 - length y)).
    now rewrite app_assoc, xorp_zeros.
  Qed.
  Lemma abin_S s x k : (18 * S k <= length x)%nat ->
    absorb_in I s (chunks 18 (firstn (18 * S k) x)) = absorb_in I s (chunks 18 (firstn (18 * k) x)) ++
      [(xorp (Spec.absorb I s (chunks 18 (firstn (18 * k) x))) (firstn 18 (skipn (18 * k) x)), i_sH I)].
  Proof. intros H. rewrite chunksr_S by lia. apply abin_snoc. Qed.
End Absorb.

(* ---------- parts that record nothing ---------- *)

Record kops_silent (cf : cfg) (o : kops) : Prop := {
  ks_init : forall ws, silent (k_init o ws);
  ks_perm : forall r s, silent (k_perm o r s);
  ks_src : forall p, silent (k_load_src o cf p);
  ks_m : forall p, silent (k_load_m o cf p);
  ks_out : forall s out n, silent (k_out o cf s out n);
  ks_store16 : forall s p, silent (k_store16 o cf s p);
  ks_load16 : forall p, silent (k_load16 o cf p) }.
Lemma silent_load_lanes cf n p : silent (RefIsap.load_lanes cf n p).
Proof.
  revert p. induction n as [|n IH]; intros p; cbn [RefIsap.load_lanes]; [apply silent_ret|].
  apply silent_bind; [apply silent_loadn|]. intros. apply silent_bind; [apply IH|]. intros. apply silent_ret.
Qed.
Lemma silent_store_lanes cf ws p : silent (RefIsap.store_lanes cf ws p).
Proof.
  revert p. induction ws as [|w ws IH]; intros p; cbn [RefIsap.store_lanes]; [apply silent_ret|].
  apply silent_bind; [apply silent_storen|]. intros. apply IH.
Qed.
Lemma silent_iv1 i : silent (iv1_pair i).
Proof. unfold iv1_pair. sil. Qed.
Lemma silent_pure {A} (f : st -> A) : silent (fun z => Ok (f z) z).
Proof. intros s a s' E. injection E as _ <-. exists []. now rewrite app_nil_r. Qed.

Section KLog.
  Variables (v : variant) (R : krounds) (L need : nat) (okr : N -> Prop) (cf : cfg) (o : kops) (kpf : N -> list N -> list N) (leak : list N -> N).
  Notation I := (v_inst v).
  Hypothesis Ho : kops_ok L need okr cf o kpf.
  Hypothesis Hsil : kops_silent cf o.
  Hypothesis Hlax : strict cf = false.
  Hypothesis Hsz : i_sz I = 50%nat.
  Hypothesis Hrate : i_rate I = 18%nat.
  Hypothesis Hperm : i_perm I = keccak_p.
  Hypothesis HH : krH R = N.of_nat (i_sH I) /\ okr (krH R).
  Hypothesis HB : krB R = N.of_nat (i_sB I) /\ okr (krB R).
  Hypothesis HE : krE R = N.of_nat (i_sE I) /\ okr (krE R).
  Hypothesis HK : krK R = N.of_nat (i_sK I) /\ okr (krK R).
  Notation wfS := (wfL L).
  Notation pH := (kpf (krH R)).
  Notation pB := (kpf (krB R)).
  Notation pE := (kpf (krE R)).
  Notation pK := (kpf (krK R)).
  Notation ab p := (fold_left (absorb1 p)).
  Notation note := (KProbe.record leak).
  Notation sn := (seen leak).
  Notation v50 := (firstn 50).
  Notation wfS_perm := (KIsapProof.wfS_perm L need okr cf o kpf Ho).
  Notation wfS_xorp := (KIsapProof.wfS_xorp L).
  Notation wfS_ab := (KIsapProof.wfS_ab L need okr cf o kpf Ho).
  Notation view_ab := (KIsapProof.view_ab v R L need okr cf o kpf Ho Hperm HH).
  Notation view_perm := (KIsapProof.view_perm v L need okr cf o kpf Ho Hperm).
  Notation slk := (KIsapProof.slk need).
  Notation slk_room := (KIsapProof.slk_room v R L need okr cf o kpf Ho Hsz Hrate HH HB HE HK).
  Notation wfS_rkf := (KIsapProof.wfS_rkf v R L need okr cf o kpf Ho HB).
  Notation view_rkf := (KIsapProof.view_rkf v R L need okr cf o kpf Ho Hperm HB).
  Notation rk_snoc := (KIsapProof.rk_snoc v R okr cf Hsz Hrate HH HB HE HK).
  Notation zpad_lanes := (KIsapProof.zpad_lanes v Hsz).
  Notation zpad_ok := (KIsapProof.zpad_ok v R okr cf Hsz Hrate HH HB HE HK).
  Notation r_init := (KIsapProof.r_init L need okr cf o kpf Ho).
  Notation fb_byte := (KIsapProof.fb_byte v R okr cf Hsz Hrate HH HB HE HK).
  Notation view_iter := (KIsapProof.view_iter v R L need okr cf o kpf Ho Hperm HE).
  Notation csk := (KIsapProof.csk v).

  Ltac ksil := repeat first
    [ apply (ks_init _ _ Hsil) | apply (ks_src _ _ Hsil) | apply (ks_m _ _ Hsil) | apply (ks_out _ _ Hsil) | apply (ks_store16 _ _ Hsil)
    | apply (ks_load16 _ _ Hsil) | apply silent_load_lanes | apply silent_iv1 | apply silent_wr | apply silent_rd | apply silent_stores_
    | progress sil ].

  (* The one step that records. *)
  Lemma l_permute r n s (m : mem) : okr r -> r = N.of_nat n -> wfS s ->
    logs (KProbe.permute o note r s) m (kpf r s) m (sn [(v50 s, n)]).
  Proof.
    intros Hr -> W t. unfold KProbe.permute, KProbe.record, bind, emit. cbn [smem strc].
    destruct (ko_perm _ _ _ _ _ _ Ho (N.of_nat n) s m Hr W (EPerm (N.of_nat n) :: EPerm (leak (v50 s)) :: t)) as (t' & E).
    exists t'. split; [exact E|]. destruct (ks_perm _ _ Hsil _ _ _ _ _ E) as (ps & E2 & ->). cbn [strc] in E2. rewrite E2, app_nil_r.
    rewrite !perms_cons, <- app_assoc. reflexivity.
  Qed.

  Lemma l_absorb_mac_k m src x s : wfS s -> has m src x -> bytes x -> N.of_nat (length x) < 2 ^ 64 -> room m src (slk (length x)) ->
    logs (KProbe.ABSORB_MAC o R cf note s src (N.of_nat (length x))) m (ab pH (chunks 18 (Spec.pad 18 x)) s) m
      (sn (absorb_in I (v50 s) (chunks 18 (Spec.pad 18 x)))).
  Proof.
    intros W Hx Bx Lx Rx. unfold KProbe.ABSORB_MAC.
    set (q := ((length x - 1) / 18)%nat).
    set (sk := fun k => ab pH (chunks 18 (firstn (18 * k) x)) s).
    assert (Bb : forall k, bytes (firstn 18 (skipn (18 * k) x))) by (intros; now apply bytes_firstn, bytes_skipn).
    assert (Wk : forall k, wfS (sk k)).
    { intros k. apply wfS_ab; auto; [apply HH|]. apply chunks_Forall. now apply bytes_firstn. }
    assert (Hld : forall k, (18 * k + 18 <= length x)%nat ->
      runs (k_load_src o cf (padd src (N.of_nat (18 * k)))) m (firstn 18 (skipn (18 * k) x)) m).
    { intros k Hk. apply (ko_src _ _ _ _ _ _ Ho); auto.
      - apply has_firstn. now apply has_skipn.
      - rewrite firstn_length, skipn_length. lia.
      - apply (slk_room m src (length x)); auto. }
    assert (HPH : forall s, wfS s -> logs (KProbe.HX o R note s) m (pH s) m (sn [(v50 s, i_sH I)])) by (intros; apply l_permute; auto; apply HH).
    assert (Vk : forall k b, v50 (xorp (sk k) b) = xorp (Spec.absorb I (v50 s) (chunks 18 (firstn (18 * k) x))) b).
    { intros k b. rewrite firstn_xorp. f_equal. apply view_ab; auto. apply chunks_Forall. now apply bytes_firstn. }
    set (rest := if (length x - 18 * q =? 18)%nat
      then [(v50 (xorp (sk q) (firstn 18 (skipn (18 * q) x))), i_sH I); (v50 (xorp (sk (S q)) [0x80]), i_sH I)]
      else [(v50 (xorp (sk q) (skipn (18 * q) x ++ [0x80])), i_sH I)]).
    assert (Elog : absorb_in I (v50 s) (chunks 18 (Spec.pad 18 x)) = absorb_in I (v50 s) (chunks 18 (firstn (18 * q) x)) ++ rest).
    { rewrite abin_last. unfold rest. rewrite !Vk. destruct (Nat.eqb_spec (length x - 18 * q) 18) as [E|E].
      - replace (length x / 18)%nat with (S q) by (unfold q; lia). rewrite abin_S by lia. rewrite <- app_assoc.
        rewrite (@skipn_all2 N (18 * S q) x) by lia. reflexivity.
      - replace (length x / 18)%nat with q by (unfold q in *; lia). reflexivity. }
    rewrite Elog, seen_app. clear Elog.
    eapply logs_bind; [|cbv beta|reflexivity].
    { apply (logs_while (fun k => (sk k, N.of_nat (18 * k), N.of_nat (length x - 18 * k))) (fun _ => m)
               (fun k => sn (absorb_in I (v50 s) (chunks 18 (firstn (18 * k) x)))) q)
        with (a1 := (sk q, N.of_nat (18 * q), N.of_nat (length x - 18 * q))) (m1 := m).
      - unfold q. lia.
      - intros k Hk. assert (Hk18 : (18 * k + 18 < length x)%nat) by (unfold q in Hk; lia). cbn [snd]. split; [lia|].
        unfold KProbe.absorb_full.
        exists (sn [(v50 (xorp (sk k) (firstn 18 (skipn (18 * k) x))), i_sH I)]). split; [|rewrite <- seen_app, Vk, <- abin_S by lia; reflexivity].
        eapply logs_step; [apply Hld; lia|ksil|]. rewrite xor_at_0.
        eapply logs_last; [apply HPH; apply wfS_xorp; auto| |ksil].
        eapply runs_eq; [apply runs_ret| |reflexivity].
        unfold sk at 2. rewrite ab_S by lia. fold (sk k). rewrite u64_small, sub64_small by lia.
        repeat f_equal; lia.
      - cbn [snd]. unfold q. lia.
      - reflexivity.
      - unfold sk. rewrite Nat.mul_0_r. change (firstn 0 x) with (@nil N). rewrite chunks_nil, Nat.sub_0_r. reflexivity.
      - reflexivity.
      - reflexivity.
      - reflexivity.
      - reflexivity. }
    cbv beta iota. apply logs_if. rewrite ab_last by lia. unfold rest. clear rest.
    destruct (N.eqb_spec (N.of_nat (length x - 18 * q)) 18) as [E|E].
    - replace (length x - 18 * q =? 18)%nat with true by lia.
      eapply logs_step; [apply Hld; lia|ksil|]. rewrite xor_at_0.
      eapply logs_bind; [apply HPH; apply wfS_xorp; auto| |reflexivity].
      unfold sk. rewrite <- ab_S by lia. fold (sk (S q)).
      replace (length x / 18)%nat with (S q) by (unfold q; lia).
      rewrite (skipn_all2 x) by lia. cbn [app]. fold (sk (S q)).
      rewrite xor_at_0. change (word_le 2 128) with ([0x80] ++ repeat 0 1). rewrite xorp_zeros.
      apply HPH. apply wfS_xorp; auto. repeat constructor.
    - replace (length x - 18 * q =? 18)%nat with false by lia.
      assert (Hq : (18 * q <= length x < 18 * q + 18)%nat) by (unfold q in *; lia).
      replace (length x / 18)%nat with q by lia.
      set (y := skipn (18 * q) x).
      assert (Ly : length y = (length x - 18 * q)%nat) by (unfold y; rewrite skipn_length; lia).
      assert (By : bytes y) by now apply bytes_skipn.
      set (lane := y ++ [0x80]).
      assert (Ll : length lane = S (length y)) by (unfold lane; rewrite app_length; cbn [length]; lia).
      assert (Bl : bytes lane) by (apply bytes_app; split; auto; repeat constructor).
      eapply logs_step; [|ksil|].
      { apply (runs_for (fun k => (xorp (sk q) (firstn k lane), N.of_nat (18 * q + Nat.min k (length y)))) (fun _ => m))
          with (a1 := (xorp (sk q) lane, N.of_nat (18 * q + length y))) (m1 := m).
        - change (N.to_nat 18) with 18%nat. intros k Hk. rewrite <- Ly. rewrite Nat2N.id.
          assert (Step : forall b, (k < length lane)%nat -> b = nth k lane 0 ->
            xor_at (xorp (sk q) (firstn k lane)) k [b] = xorp (sk q) (firstn (S k) lane)).
          { intros b Hkl ->. rewrite (firstn_snoc lane k 0) by lia. rewrite <- xor_at_snoc. f_equal. rewrite firstn_length. lia. }
          apply runs_if. destruct (N.ltb_spec (N.of_nat k) (N.of_nat (length y))) as [Hc|Hc].
          + eapply runs_bind.
            * apply runs_load. replace (Nat.min k (length y)) with k by lia.
              rewrite (Nat2N.inj_add (18 * q) k), <- padd_padd. apply (has_skipn m src x (18 * q) Hx). fold y. lia.
            * eapply runs_eq; [apply runs_ret| |reflexivity]. fold y.
              rewrite Step; [|lia|unfold lane; now rewrite app_nth1 by lia]. rewrite u64_small by lia. do 2 f_equal; lia.
          + apply runs_if. destruct (N.eqb_spec (N.of_nat k) (N.of_nat (length y))) as [E'|E'].
            * eapply runs_eq; [apply runs_ret| |reflexivity]. rewrite Step; [do 2 f_equal; lia|lia|].
              unfold lane. rewrite app_nth2 by lia. replace (k - length y)%nat with 0%nat by lia. reflexivity.
            * eapply runs_eq; [apply runs_ret| |reflexivity]. rewrite !(firstn_all2 lane) by lia. do 2 f_equal; lia.
        - cbn [firstn Nat.min]. rewrite xorp_nil. f_equal. lia.
        - reflexivity.
        - change (N.to_nat 18) with 18%nat. rewrite (firstn_all2 lane) by lia. do 2 f_equal. lia.
        - reflexivity. }
      cbn [fst]. apply HPH. now apply wfS_xorp.
  Qed.
  Notation rkf := (fold_left (fun s b => pB (xorp s (Spec.first_bit b)))).
  Notation rks := (fold_left (fun s b => i_perm I (i_sB I) (xorp s (Spec.first_bit b)))).
  Lemma rk_in_split K iv Y s0 bits : length Y = 16%nat -> length K = 16%nat -> bytes K -> length iv = 8%nat -> bytes iv ->
    s0 = i_perm I (i_sK I) (Spec.zpad I (K ++ iv)) -> bits = Spec.msb_bits Y ->
    rk_in I K iv Y = (Spec.zpad I (K ++ iv), i_sK I) :: sB_in I s0 (firstn 127 bits) ++
      [(xorp (rks (firstn 127 bits) s0) (Spec.first_bit (nth 127 bits false)), i_sK I)].
  Proof.
    intros LY LK BK Li Bi -> ->. set (bits := Spec.msb_bits Y). set (s0 := i_perm I (i_sK I) _).
    assert (Hb : length bits = 128%nat) by (unfold bits; rewrite msb_bits_length; lia).
    pose proof (v_libok v (Cfg true false (fun _ => 0))) as HL. pose proof (v_macok v) as Hmc.
    destruct (zpad_ok K iv) as [Bz Lz]; auto.
    assert (W0 : wf I s0).
    { apply (wf_perm _ I _ _ HL); [apply (mo_leK _ _ _ Hmc)|]. split; [now rewrite Hsz|exact Bz]. }
    change (rk_in I K iv Y) with ((Spec.zpad I (K ++ iv), i_sK I) :: rk_steps I s0 bits). apply (f_equal (cons _)).
    rewrite <- (firstn_skipn 127 bits) at 1. rewrite (skipn_cons_nth bits 127 false) by lia.
    rewrite skipn_all2 by lia. exact (rk_steps_snoc _ _ _ _ _ HL Hmc s0 (firstn 127 bits) _ W0).
  Qed.

  Lemma l_rk m k ivp yp out outlen K iv Y n :
    has m k K -> has m ivp iv -> has m yp Y -> length K = 16%nat -> length iv = 8%nat -> length Y = 16%nat -> bytes K -> bytes iv ->
    n = (if N.eqb outlen 34 then 34%nat else 16%nat) -> room m out n ->
    logs (KProbe.isap_rk o R cf note k ivp yp 16 out outlen) m tt (putp m out (Spec.isap_rk I K iv Y n)) (sn (rk_in I K iv Y)) /\ length (Spec.isap_rk I K iv Y n) = n
    /\ bytes (Spec.isap_rk I K iv Y n).
  Proof.
    intros Hk Hi Hy LK Li LY BK Bi En Ro.
    destruct (zpad_ok K iv) as [Bz Lz]; auto.
    destruct (r_init m (Spec.zpad I (K ++ iv)) Bz Lz) as (si & Ri & Wi & Vi).
    set (s0 := pK si). assert (W0 : wfS s0) by (apply wfS_perm; auto; apply HK).
    set (bits := Spec.msb_bits Y).
    assert (Hb : length bits = 128%nat) by (unfold bits; rewrite msb_bits_length; lia).
    assert (Wj : forall j, wfS (rkf (firstn j bits) s0)) by (intros; now apply wfS_rkf).
    set (s1 := xorp (rkf (firstn 127 bits) s0) (Spec.first_bit (nth 127 bits false))).
    assert (W1 : wfS s1) by (apply wfS_xorp; auto; apply bytes_fb).
    assert (V : firstn 50 (pK s1) = Spec.rk_absorb I (i_perm I (i_sK I) (Spec.zpad I (K ++ iv))) bits).
    { unfold bits. rewrite rk_snoc by auto. rewrite (view_perm _ (i_sK I)) by (auto; apply HK). unfold s1. rewrite firstn_xorp, view_rkf by auto.
      unfold s0. rewrite (view_perm _ (i_sK I)) by (auto; apply HK). now rewrite Vi. }
    assert (Wf : wfS (pK s1)) by (apply wfS_perm; auto; apply HK).
    assert (En34 : (n <= 34)%nat) by (rewrite En; destruct (outlen =? 34); lia).
    assert (E : firstn n (pK s1) = Spec.isap_rk I K iv Y n).
    { unfold Spec.isap_rk. fold bits. rewrite <- V, firstn_firstn. f_equal. lia. }
    rewrite <- E. split; [|split; [rewrite firstn_length, (proj1 Wf); pose proof (ko_L _ _ _ _ _ _ Ho); lia|apply bytes_firstn, Wf]].
    assert (V0 : v50 s0 = i_perm I (i_sK I) (Spec.zpad I (K ++ iv))).
    { unfold s0. rewrite (view_perm _ (i_sK I)) by (auto; apply HK). now rewrite Vi. }
    assert (Elog : sn (rk_in I K iv Y) = sn [(v50 si, i_sK I)] ++ sn (sB_in I (v50 s0) (firstn 127 bits)) ++ sn [(v50 s1, i_sK I)]).
    { rewrite <- !seen_app. rewrite (rk_in_split K iv Y (v50 s0) bits) by auto. rewrite Vi. unfold s1. rewrite firstn_xorp, view_rkf by auto.
      reflexivity. }
    rewrite Elog. clear Elog.
    unfold KProbe.isap_rk.
    eapply logs_step; [apply (lax_load_lanes cf m k 8 K); auto|ksil|].
    eapply logs_step; [apply (lax_load_lanes cf m ivp 4 iv); auto|ksil|].
    rewrite zpad_lanes by auto. eapply logs_step; [exact Ri|ksil|].
    eapply logs_bind; [apply l_permute; auto; apply HK| |reflexivity]. fold s0.
    eapply logs_bind; [|cbv beta|reflexivity].
    { apply (logs_for (fun i => rkf (firstn i bits) s0) (fun _ => m) (fun i => sn (sB_in I (v50 s0) (firstn i bits)))) with (a1 := rkf (firstn 127 bits) s0) (m1 := m); try reflexivity.
      change (N.to_nat (sub64 (u64 (16 * 8)) 1)) with 127%nat. intros i Hi127.
      exists (sn [(v50 (xorp (rkf (firstn i bits) s0) (Spec.first_bit (nth i bits false))), i_sB I)]). split.
      2:{ rewrite <- seen_app, (firstn_snoc bits i false) by lia. rewrite sB_in_snoc. now rewrite firstn_xorp, view_rkf by auto. }
      eapply logs_step; [|ksil|].
      { apply runs_load. replace (N.of_nat i / 8) with (N.of_nat (i / 8)) by lia. apply Hy. lia. }
      destruct (fb_byte (nth (i / 8) Y 0) (7 - N.of_nat i mod 8)) as [F1 F2]; [lia|].
      rewrite (ko_bit _ _ _ _ _ _ Ho) by exact F2. rewrite F1.
      assert (Ei : N.testbit (nth (i / 8) Y 0) (7 - N.of_nat i mod 8) = nth i bits false).
      { unfold bits. rewrite nth_msb_bits by lia. reflexivity. }
      rewrite Ei.
      eapply logs_eq; [apply (l_permute _ (i_sB I)); [apply HB|apply HB|apply wfS_xorp; auto; apply bytes_fb]| |reflexivity|reflexivity].
      rewrite (firstn_snoc bits i false) by lia. rewrite fold_left_app. reflexivity. }
    eapply logs_step; [|ksil|].
    { apply runs_load. change (sub64 16 1) with (N.of_nat 15). apply Hy. lia. }
    eapply logs_last; [| |ksil].
    { destruct (fb_byte (nth 15 Y 0) 0) as [F1 F2]; [lia|]. rewrite N.shiftr_0_r in F1, F2.
      rewrite (ko_bit _ _ _ _ _ _ Ho) by exact F2. rewrite F1.
      replace (N.testbit (nth 15 Y 0) 0) with (nth 127 bits false) by (unfold bits; rewrite nth_msb_bits by lia; reflexivity).
      fold s1. apply l_permute; auto; apply HK. }
    now apply (ko_out _ _ _ _ _ _ Ho).
  Qed.

  Hypothesis Hivb : forall ty, ty < 4 -> bytes (Spec.iv I ty).
  Notation csk_ivs := (KIsapProof.csk_ivs v R okr cf Hsz Hrate HH HB HE HK).
  Notation r_iv1 := (KIsapProof.r_iv1 v R okr cf Hsz Hrate HH HB HE HK Hivb).

  Lemma l_mac : mac_log csk (fun _ => True) (fun _ _ => True) no_cond (2 ^ 64) slk (KProbe.isap_mac o R cf note) (Spec.isap_mac I)
    (fun K Nn A C => sn (mac_in I K Nn A C)).
  Proof.
    intros mm k npub ad c tag K Nn A C Hc _ [BK Hk] LK [BN Hn] LN [BA HA] [BC HC] La Lc Rt _ _ _ _ _ _ _ _ _ Ra Rc.
    destruct (csk_ivs mm Hc) as (I1 & I2 & I3).
    assert (Bi : bytes (Spec.iv_A I)) by (apply Hivb; lia).
    destruct (zpad_ok Nn (Spec.iv_A I)) as [Bz Lz]; auto.
    destruct (r_init mm (Spec.zpad I (Nn ++ Spec.iv_A I)) Bz Lz) as (si & Ri & Wi & Vi).
    cbv beta. unfold KProbe.isap_mac.
    eapply logs_eq; [|reflexivity|reflexivity|].
    {
    eapply logs_step; [apply (lax_load_lanes cf mm npub 8 Nn); auto|ksil|].
    eapply logs_step; [apply (r_iv1 mm 0); auto; lia|ksil|].
    eapply logs_step; [apply (r_iv1 mm 1); auto; lia|ksil|].
    eapply logs_step; [apply (r_iv1 mm 2); auto; lia|ksil|].
    eapply logs_step; [apply (r_iv1 mm 3); auto; lia|ksil|].
    match goal with |- context [KProbe.init o (_ ++ [?a; ?b; ?c; ?d] ++ _)] =>
      change [a; b; c; d] with (map le_word (chunks 2 (Spec.iv_A I))) end.
    rewrite zpad_lanes by auto.
    eapply logs_step; [exact Ri|ksil|].
    eapply logs_bind; [apply l_permute; auto; apply HH| |reflexivity].
    set (s1 := pH si). assert (W1 : wfS s1) by (apply wfS_perm; auto; apply HH).
    assert (V1 : firstn 50 s1 = i_perm I (i_sH I) (Spec.zpad I (Nn ++ Spec.iv_A I))).
    { unfold s1. rewrite (view_perm _ (i_sH I)) by (auto; apply HH). now rewrite Vi. }
    assert (FA : forall X, bytes X -> Forall bytes (chunks 18 (Spec.pad 18 X))) by (intros; now apply chunks_Forall, RefProof.bytes_pad).
    eapply logs_bind; [apply l_absorb_mac_k; auto|cbv beta|reflexivity].
    set (s2 := ab pH _ s1). assert (W2 : wfS s2) by (apply wfS_ab; auto; apply HH).
    assert (Bd : bytes (repeat 0 49 ++ [1])) by (apply bytes_app; split; [apply bytes_repeat; lia|repeat constructor]).
    rewrite (ko_dom _ _ _ _ _ _ Ho).
    assert (W2' : wfS (xorp s2 (repeat 0 49 ++ [1]))) by now apply wfS_xorp.
    eapply logs_bind; [apply l_absorb_mac_k; auto|cbv beta|reflexivity].
    set (s := ab pH _ _). assert (W : wfS s) by (apply wfS_ab; auto; apply HH).
    set (S0 := Spec.absorb I (Spec.dom_sep I (Spec.absorb I (i_perm I (i_sH I) (Spec.zpad I (Nn ++ Spec.iv_A I)))
      (chunks 18 (Spec.pad 18 A)))) (chunks 18 (Spec.pad 18 C))).
    assert (V : firstn 50 s = S0).
    { unfold s. rewrite view_ab by auto. unfold S0. f_equal. unfold Spec.dom_sep. rewrite Hsz. change (50 - 1)%nat with 49%nat.
      rewrite firstn_xorp. f_equal. unfold s2. rewrite view_ab by auto. now rewrite V1. }
    pose proof (ko_L _ _ _ _ _ _ Ho) as HL.
    set (Y := firstn 16 s). assert (LY : length Y = 16%nat) by (unfold Y; rewrite firstn_length, (proj1 W); lia).
    set (ka := Spec.isap_rk I K (Spec.iv_KA I) Y 16).
    apply (logs_with_block _ _ _ _ _ (map Some ka)).
    set (M0 := mm ++ [uninit 16]). set (yp := P (length mm) 0).
    assert (R0 : room M0 yp 16).
    { apply room_of_le. unfold yp, M0. cbn [pb po]. rewrite blk_mid, uninit_length. lia. }
    eapply logs_step; [now apply (ko_store16 _ _ _ _ _ _ Ho)|ksil|]. fold Y.
    assert (Put : forall b0 bs, length b0 = 16%nat -> length bs = 16%nat -> putp (mm ++ [b0]) yp bs = mm ++ [map Some bs]).
    { intros b0 bs L0 Ls. unfold yp, putp, put. cbn [pb po]. rewrite blk_mid, upd_mid.
      change (N.to_nat 0) with 0%nat. do 2 f_equal. apply splice_all. now rewrite map_length, L0. }
    unfold M0. rewrite Put by auto. set (M1 := mm ++ [map Some Y]).
    assert (Hy : has M1 yp Y) by (apply has_blk0, blk_mid).
    destruct (l_rk M1 k RefIsap.ISAP_IV_KA yp yp RefIsap.CRYPTO_KEYBYTES K (Spec.iv_KA I) Y 16) as (Rrk & Lka & Bka); auto.
    { now apply has_app. }
    { now apply has_app. }
    { apply Hivb. lia. }
    { apply room_of_le. unfold yp, M1. cbn [pb po]. rewrite blk_mid, map_length, LY. lia. }
    fold ka in Rrk, Lka, Bka.
    eapply logs_bind; [exact Rrk|cbv beta|reflexivity]. unfold M1. rewrite Put by (rewrite ?map_length; auto).
    set (M2 := mm ++ [map Some ka]).
    assert (Hka : has M2 yp ka) by (apply has_blk0, blk_mid).
    eapply logs_step; [apply (ko_load16 _ _ _ _ _ _ Ho _ _ ka); auto|ksil|].
    set (s3 := ka ++ skipn 16 s).
    assert (W3 : wfS s3).
    { split; [unfold s3; rewrite app_length, skipn_length, (proj1 W), Lka; lia|]. apply bytes_app. split; auto. apply bytes_skipn, W. }
    eapply logs_last; [apply (l_permute _ (i_sH I)); auto; apply HH| |ksil].
    assert (W4 : wfS (pH s3)) by (apply wfS_perm; auto; apply HH).
    assert (E : firstn 16 (pH s3) = Spec.isap_mac I K Nn A C).
    { unfold Spec.isap_mac. rewrite Hrate. fold S0. cbv zeta.
      replace (firstn 16 S0) with Y by (rewrite <- V, firstn_firstn; reflexivity). fold ka.
      replace (ka ++ skipn 16 S0) with (firstn 50 s3).
      - rewrite <- (view_perm _ (i_sH I)) by (auto; apply HH). rewrite firstn_firstn. reflexivity.
      - unfold s3. rewrite firstn_app, Lka. rewrite (firstn_all2 ka) by lia. f_equal. rewrite <- V.
        rewrite firstn_skipn_comm. reflexivity. }
    rewrite <- E.
    eapply runs_eq; [apply (ko_store16 _ _ _ _ _ _ Ho); auto; now apply room_app|reflexivity|].
    unfold M2. apply putp_app. rewrite firstn_length, (proj1 W4). replace (Nat.min 16 L) with 16%nat by lia. exact Rt. }
    rewrite <- !seen_app. f_equal. unfold mac_in, hash_in, hash_end, hash_mid, hash_start. cbv zeta. rewrite Hrate.
    pose proof (ko_L _ _ _ _ _ _ Ho) as HL.
    set (s1 := pH si). assert (W1 : wfS s1) by (apply wfS_perm; auto; apply HH).
    assert (V1 : v50 s1 = i_perm I (i_sH I) (Spec.zpad I (Nn ++ Spec.iv_A I))).
    { unfold s1. rewrite (view_perm _ (i_sH I)) by (auto; apply HH). now rewrite Vi. }
    assert (FA : forall X, bytes X -> Forall bytes (chunks 18 (Spec.pad 18 X))) by (intros; now apply chunks_Forall, RefProof.bytes_pad).
    assert (Bd : bytes (repeat 0 49 ++ [1])) by (apply bytes_app; split; [apply bytes_repeat; lia|repeat constructor]).
    set (s2 := ab pH (chunks 18 (Spec.pad 18 A)) s1). assert (W2 : wfS s2) by (apply wfS_ab; auto; apply HH).
    assert (W2' : wfS (xorp s2 (repeat 0 49 ++ [1]))) by now apply wfS_xorp.
    set (s := ab pH (chunks 18 (Spec.pad 18 C)) (xorp s2 (repeat 0 49 ++ [1]))). assert (W : wfS s) by (apply wfS_ab; auto; apply HH).
    set (S1 := Spec.dom_sep I (Spec.absorb I (i_perm I (i_sH I) (Spec.zpad I (Nn ++ Spec.iv_A I))) (chunks 18 (Spec.pad 18 A)))).
    set (S0 := Spec.absorb I S1 (chunks 18 (Spec.pad 18 C))).
    assert (V2 : v50 (xorp s2 (repeat 0 49 ++ [1])) = S1).
    { unfold S1, Spec.dom_sep. rewrite Hsz. change (50 - 1)%nat with 49%nat. rewrite firstn_xorp. f_equal. unfold s2.
      rewrite view_ab by auto. now rewrite V1. }
    assert (V : v50 s = S0) by (unfold s; rewrite view_ab by auto; unfold S0; now rewrite V2).
    rewrite Vi, V1, V2. replace (firstn 16 s) with (firstn 16 S0) by (rewrite <- V, firstn_firstn; reflexivity).
    set (ka := Spec.isap_rk I K (Spec.iv_KA I) (firstn 16 S0) 16).
    assert (Lka : length ka = 16%nat).
    { refine (proj2 (RefProof.wf_rk _ I _ _ _ (v_libok v (Cfg true false (fun _ => 0))) (v_macok v) K (Spec.iv_KA I) (firstn 16 S0) 16 BK _ LK _ _ _));
        [apply Hivb; lia|reflexivity| |rewrite Hsz; lia].
      rewrite <- V, !firstn_length, (proj1 W). lia. }
    replace (v50 (ka ++ skipn 16 s)) with (ka ++ skipn 16 S0).
    2:{ rewrite firstn_app, Lka. rewrite (firstn_all2 ka) by lia. f_equal. rewrite <- V. rewrite firstn_skipn_comm. reflexivity. }
    cbn [app]. rewrite <- app_assoc. reflexivity.
  Qed.


  Lemma l_enc : enc_log csk (fun _ => True) (fun _ _ => True) no_cond (2 ^ 64) (KProbe.isap_enc o R cf note) (Spec.isap_enc I)
    (fun K Nn n => sn (enc_in I K Nn n)).
  Proof.
    intros mm k npub mp c K Nn T Hc _ [BK Hk] LK [BN Hn] LN [BT HT] LT HT0 Rc _ _ _ Hf _ _ _ _.
    destruct (csk_ivs mm Hc) as (I1 & I2 & I3).
    assert (Bi : bytes (Spec.iv_KE I)) by (apply Hivb; lia).
    pose proof (ko_L _ _ _ _ _ _ Ho) as HL.
    set (RK := Spec.isap_rk I K (Spec.iv_KE I) Nn 34).
    set (blk1 := splice (uninit 50) 0 (map Some RK)).
    set (q := ((length T - 1) / 18)%nat).
    assert (Elog : sn (enc_in I K Nn (length T)) = sn (rk_in I K (Spec.iv_KE I) Nn) ++ sn [(RK ++ Nn, i_sE I)] ++
      sn (stream I (i_perm I (i_sE I) (RK ++ Nn)) q)).
    { rewrite <- !seen_app. unfold enc_in. replace (length T =? 0)%nat with false by lia. do 2 f_equal.
      rewrite Hrate, Hsz. replace ((length T + 18 - 1) / 18)%nat with (S q) by (unfold q; lia). reflexivity. }
    cbv beta. rewrite Elog. clear Elog.
    unfold KProbe.isap_enc. apply (logs_with_block _ _ _ _ _ blk1).
    set (M0 := mm ++ [uninit 50]). set (sp := P (length mm) 0).
    assert (R0 : room M0 sp 34).
    { apply room_of_le. unfold sp, M0. cbn [pb po]. rewrite blk_mid, uninit_length. lia. }
    destruct (l_rk M0 k RefIsap.ISAP_IV_KE npub sp (50 - RefIsap.CRYPTO_NPUBBYTES) K (Spec.iv_KE I) Nn 34) as (Rrk & LRK & BRK); auto;
      try now apply has_app.
    fold RK in Rrk, LRK, BRK.
    eapply logs_bind; [exact Rrk|cbv beta|reflexivity].
    assert (E1 : putp M0 sp RK = mm ++ [blk1]).
    { unfold M0, sp, putp, put. cbn [pb po]. rewrite blk_mid, upd_mid. reflexivity. }
    assert (Hs : has (putp M0 sp RK) sp RK) by (apply has_putp_same; now rewrite LRK).
    rewrite E1 in *. set (M1 := mm ++ [blk1]) in *.
    assert (F1 : forall q bs, has mm q bs -> has M1 q bs) by (intros; now apply has_app).
    eapply logs_step; [apply (lax_load_lanes cf M1 sp 17 RK); auto|ksil|].
    eapply logs_step; [apply (lax_load_lanes cf M1 npub 8 Nn); auto|ksil|].
    rewrite <- lanes_app by (rewrite LRK; reflexivity).
    destruct (r_init M1 (RK ++ Nn)) as (s0 & Ri & W0 & V0).
    { now apply bytes_app. }
    { rewrite app_length. lia. }
    eapply logs_step; [exact Ri|ksil|].
    rewrite <- V0 at 1. eapply logs_bind; [apply l_permute; auto; apply HE| |reflexivity].
    assert (Wi : forall j, wfS (iter pE j s0)) by (intros; now apply view_iter).
    change (pE s0) with (iter pE 1 s0).
    set (ct := Spec.isap_enc I K Nn T).
    assert (Lct : length ct = length T) by now apply v_enc_length.
    assert (Ct : forall i, (i < length T)%nat -> nth i ct 0 = N.lxor (nth i T 0) (nth (i mod 18) (iter pE (S (i / 18)) s0) 0)).
    { intros i Hi. unfold ct. rewrite v_enc_nth by auto. f_equal. unfold v_ks, ks_byte. rewrite Hrate, Hsz.
      change (50 - 16)%nat with 34%nat. fold RK. rewrite <- V0. destruct (view_iter (S (i / 18)) s0 W0) as [<- _].
      apply nth_firstn_lt. pose proof (Nat.mod_upper_bound i 18). lia. }
    assert (HT1 : has M1 mp T) by auto.
    assert (Rc1 : room M1 c (length T)) by now apply room_app.
    assert (Rk : forall n, (n <= length T)%nat -> room M1 c (length (firstn n ct))).
    { intros n Hnl i Hi. apply Rc1. rewrite firstn_length in Hi. lia. }
    assert (Lane : forall j, (18 * j + 18 <= length T)%nat ->
      runs (KProbe.squeeze_lane o cf (iter pE (S j) s0) mp c (N.of_nat (18 * j)))
           (putp M1 c (firstn (18 * j) ct)) tt (putp M1 c (firstn (18 * S j) ct))).
    { intros j Hj. set (tb := firstn 18 (skipn (18 * j) T)).
      assert (Lb : length tb = 18%nat) by (unfold tb; rewrite firstn_length, skipn_length; lia).
      assert (Bb : bytes tb) by now apply bytes_firstn, bytes_skipn.
      unfold KProbe.squeeze_lane.
      eapply runs_bind.
      { apply (ko_m _ _ _ _ _ _ Ho _ _ tb); auto. apply (text_at M1 mp c T ct (18 * j) 18); auto. }
      eapply runs_bind; [apply runs_emit|]. rewrite xor_at_0.
      assert (Ls : length (xorp (firstn 18 (iter pE (S j) s0)) tb) = 18%nat).
      { rewrite xorp_length, firstn_length, (proj1 (Wi (S j))). lia. }
      assert (E : firstn (18 * S j) ct = firstn (18 * j) ct ++ xorp (firstn 18 (iter pE (S j) s0)) tb).
      { apply (nth_ext_le _ _ 0).
        - rewrite app_length, !firstn_length, Ls. lia.
        - intros i Hi. rewrite firstn_length in Hi. rewrite nth_firstn_lt by lia.
          destruct (Nat.ltb_spec i (18 * j)) as [Hlt|Hge].
          + rewrite app_nth1 by (rewrite firstn_length; lia). now rewrite nth_firstn_lt.
          + rewrite app_nth2 by (rewrite firstn_length; lia). rewrite firstn_length.
            replace (Nat.min (18 * j) (length ct)) with (18 * j)%nat by lia.
            rewrite nth_xorp, firstn_length, (proj1 (Wi (S j))). replace (i - 18 * j <? Nat.min 18 L)%nat with true by lia.
            rewrite Ct by lia. unfold tb. rewrite !nth_firstn_lt by lia. rewrite nth_skipn_add. rewrite N.lxor_comm.
            replace (i / 18)%nat with j by lia. f_equal; f_equal; lia. }
      eapply runs_eq; [apply runs_stores_|reflexivity|].
      - apply room_putp; [apply Rk; lia|]. rewrite Ls. apply (room_sub M1 c (length T)); auto.
      - rewrite E. rewrite <- putp_app_bytes.
        + rewrite firstn_length. do 2 f_equal. lia.
        + rewrite <- E. apply Rk. lia. }
    eapply logs_last; [| |cbv beta iota; unfold KProbe.squeeze_lane; ksil].
    { apply (logs_while (fun j => (iter pE (S j) s0, N.of_nat (18 * j), N.of_nat (length T - 18 * j)))
               (fun j => putp M1 c (firstn (18 * j) ct)) (fun j => sn (stream I (i_perm I (i_sE I) (RK ++ Nn)) j)) q)
        with (a1 := (iter pE (S q) s0, N.of_nat (18 * q), N.of_nat (length T - 18 * q)))
             (m1 := putp M1 c (firstn (18 * q) ct)).
      - unfold q. lia.
      - intros j Hj. assert (Hj8 : (18 * j + 18 < length T)%nat) by (unfold q in Hj; lia).
        cbn [snd]. split; [lia|]. unfold KProbe.enc_full.
        exists (sn [(v50 (iter pE (S j) s0), i_sE I)]). split.
        2:{ rewrite <- seen_app, stream_snoc. destruct (view_iter (S j) s0 W0) as [-> _]. rewrite V0, (iter_S (i_perm I (i_sE I))). reflexivity. }
        eapply logs_step; [apply Lane; lia|unfold KProbe.squeeze_lane; ksil|].
        eapply logs_last; [apply l_permute; [apply HE|apply HE|apply Wi]| |ksil].
        eapply runs_eq; [apply runs_ret| |reflexivity].
        rewrite u64_small, sub64_small by lia. repeat f_equal; lia.
      - cbn [snd]. unfold q. lia.
      - reflexivity.
      - rewrite Nat.sub_0_r. reflexivity.
      - rewrite Nat.mul_0_r. change (firstn 0 ct) with (@nil N). apply putp_nil.
      - reflexivity.
      - reflexivity.
      - reflexivity. }
    cbv beta iota. apply runs_if.
    assert (Fin : forall n, (length T <= n)%nat -> putp M1 c (firstn n ct) = putp mm c ct ++ [blk1]).
    { intros n Hn'. rewrite firstn_all2 by lia. unfold M1. apply putp_app. now rewrite Lct. }
    destruct (N.eqb_spec (N.of_nat (length T - 18 * q)) 18) as [E|E].
    - eapply runs_eq; [apply Lane; lia|reflexivity|]. apply Fin. lia.
    - assert (Hq : (18 * q <= length T < 18 * q + 18)%nat) by (unfold q in *; lia).
      eapply runs_eq; [|reflexivity|apply (Fin (length T)); lia].
      eapply runs_bind; [|apply runs_ret].
      apply (runs_for (fun j => N.of_nat (18 * q + j)) (fun j => putp M1 c (firstn (18 * q + j) ct)))
        with (a1 := N.of_nat (length T)).
      + rewrite Nat2N.id. intros j Hj.
        eapply runs_bind.
        { apply runs_load. rewrite <- (padd_0 (padd mp _)). change 0 with (N.of_nat 0) at 1.
          apply (text_at M1 mp c T ct (18 * q + j) 1); auto; try lia. rewrite firstn_length, skipn_length. lia. }
        eapply runs_bind.
        { apply runs_store1. rewrite inside_putp by (apply Rk; lia). apply Rc1. lia. }
        eapply runs_eq; [apply runs_ret| |].
        * rewrite u64_small by lia. lia.
        * rewrite Nat.add_succ_r. rewrite (firstn_snoc ct (18 * q + j) 0) by lia.
          rewrite <- putp_app_bytes.
          -- rewrite firstn_length. f_equal; [f_equal; lia|]. f_equal.
             rewrite Ct by lia. rewrite N.lxor_comm, Nat2N.id. rewrite nth_firstn_lt, nth_skipn_add by lia.
             replace ((18 * q + j) / 18)%nat with q by lia. f_equal; f_equal; lia.
          -- rewrite <- firstn_snoc by lia. apply Rk. lia.
      + rewrite Nat.add_0_r. lia.
      + now rewrite Nat.add_0_r.
      + rewrite Nat2N.id. lia.
      + rewrite Nat2N.id. f_equal. f_equal. lia.
  Qed.
End KLog.
