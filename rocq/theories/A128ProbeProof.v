(* The states on which isap.c of the optimised ISAP-A-128 implementations calls its permutation. Proofs only: the proofs of A128Proof.v once more,
   with the record of the device of A128Probe.v. *)
From Verif Require Import Base Prog Poly SpecPerm Words AsconProof Mem Vocab Vocab2 MemProof RefLib Sponge RefProof RefAead SpecFacts Trace.
From Verif Require Import Api ApiProof OptPerm OptRep OptPermProof OptIsap OptLanes OptProof A128 A128Proof VocabProbe VocabOptProbe ProbeProof OptProbeProof.
From Verif Require Spec RefIsap OptProbe A128Probe.
Import Spec(xorp, xorz).
Open Scope N_scope.
Open Scope cm_scope.

Lemma silent_if {A} (b : bool) (x y : M A) : silent x -> silent y -> silent (if_ b x y).
Proof. intros Hx Hy. apply calls_if; intros _; assumption. Qed.

Ltac sil := repeat first
  [ apply silent_ret | apply silent_load | apply silent_store | apply silent_load_word | apply silent_load_ull | apply silent_store_ull
  | apply silent_storen | apply silent_loadn
  | match goal with
    | |- silent (bind _ _) => apply silent_bind; [|intros]
    | |- silent (for_ _ _ _ _) => apply silent_for; intros
    | |- silent (if_ _ _ _) => apply silent_if
    | |- silent (load_eo _ _) => unfold load_eo, load32
    | |- silent (store_eo _ _ _) => unfold store_eo, store32
    | |- silent (let '(_, _) := ?x in _) => destruct x
    end ].

Lemma absorb12_snoc s x b : absorb_in I12 s (x ++ [b]) = absorb_in I12 s x ++ [(xorp (absA s x) b, 12%nat)].
Proof. rewrite absorb_in_app. reflexivity. Qed.

(* The record of an absorption, split at its last block. *)
Lemma absorb12_last s x : let q := (length x / 8)%nat in
  absorb_in I12 s (chunks 8 (Spec.pad 8 x)) =
  absorb_in I12 s (chunks 8 (firstn (8 * q) x)) ++ [(xorp (absA s (chunks 8 (firstn (8 * q) x))) (skipn (8 * q) x ++ [0x80]), 12%nat)].
Proof.
  cbv zeta. rewrite pad_chunks. set (q := (length x / 8)%nat). set (y := skipn (8 * q) x). rewrite absorb12_snoc.
  change (0x80 :: repeat 0 (7 - length y)) with ([0x80] ++ repeat 0 (7 - length y)).
  now rewrite app_assoc, xorp_zeros.
Qed.
Lemma absorb12_S s x k : (8 * S k <= length x)%nat ->
  absorb_in I12 s (chunks 8 (firstn (8 * S k) x)) =
  absorb_in I12 s (chunks 8 (firstn (8 * k) x)) ++ [(xorp (absA s (chunks 8 (firstn (8 * k) x))) (firstn 8 (skipn (8 * k) x)), 12%nat)].
Proof. intros H. rewrite chunks_firstn_S by auto. apply absorb12_snoc. Qed.

Lemma rk12_in K iv Y s0 bits : length Y = 16%nat -> length K = 16%nat -> bytes K -> length iv = 8%nat -> bytes iv ->
  s0 = ascon_p 12 (Spec.zpad I12 (K ++ iv)) -> bits = Spec.msb_bits Y ->
  rk_in I12 K iv Y = (Spec.zpad I12 (K ++ iv), 12%nat) :: sB_in I12 s0 (firstn 127 bits) ++
    [(xorp (fold12 (firstn 127 bits) s0) (Spec.first_bit (nth 127 bits false)), 12%nat)].
Proof.
  intros LY LK BK Li Bi -> ->. set (bits := Spec.msb_bits Y). set (s0 := ascon_p 12 _).
  assert (Hb : length bits = 128%nat) by (unfold bits; rewrite msb_bits_length; lia).
  assert (W0 : wf40 s0) by (apply wf40_ascon, wf_zpad12; [now apply bytes_app|rewrite app_length; lia]).
  change (rk_in I12 K iv Y) with ((Spec.zpad I12 (K ++ iv), 12%nat) :: rk_steps I12 s0 bits). apply (f_equal (cons _)).
  rewrite <- (firstn_skipn 127 bits) at 1. rewrite (skipn_cons_nth bits 127 false) by lia.
  rewrite skipn_all2 by lia. exact (rk_steps_snoc _ _ _ _ _ (v_libok A128 (Cfg true false (fun _ => 0))) (v_macok A128) s0 (firstn 127 bits) _ W0).
Qed.

Lemma logs_assoc {A B C} (x : M A) (g : A -> M B) (h : B -> M C) m c m' ps :
  logs (y <- (v <- x ;; g v) ;; h y) m c m' ps -> logs (v <- x ;; y <- g v ;; h y) m c m' ps.
Proof. intros H t. destruct (H t) as (t' & E & Q). exists t'. split; auto. rewrite <- E. unfold bind. now destruct (x (St m t)). Qed.

(* ---------- opt_64 ---------- *)

Section Opt64Log.
  Variables (f : nat -> nat) (a : asconp) (rs : list nat) (cf : cfg) (UL : N) (leak : state -> N).
  Hypothesis Ha : ap_ok f a rs.
  Hypothesis Hr12 : In 12%nat rs.
  Hypothesis Hcal : forall i, (i < 4)%nat -> al8 cf (P i 0).
  Notation note := (OptProbe.record leak).
  Notation sn := (seen (fun s => leak (held a s))).
  Notation stf_blk := (A128Proof.stf_blk f).
  Notation ul_small := (A128Proof.ul_small UL).
  Notation subl_small := (A128Proof.subl_small UL).

  Lemma l_P12 s (m : mem) : wf40 s -> logs (A128Probe.P12 a note (stf f s)) m (stf f (ascon_p 12 s)) m (sn [(s, 12%nat)]).
  Proof. intros W. now apply (l_perm f a rs leak Ha 12). Qed.

  Lemma l_absorb_mac m src x s len : wf40 s -> has m src x -> bytes x -> ul UL len = N.of_nat (length x) -> al8 cf src ->
    logs (A128Probe.ABSORB_MAC a UL cf note (stf f s) src len) m (stf f (absA s (chunks 8 (Spec.pad 8 x)))) m
      (sn (absorb_in I12 s (chunks 8 (Spec.pad 8 x)))).
  Proof.
    intros W Hx Bx Lx Al. unfold A128Probe.ABSORB_MAC. rewrite Lx.
    assert (P0 : 2 ^ UL <> 0) by (apply N.pow_nonzero; lia).
    assert (Hle : N.of_nat (length x) <= len) by (rewrite <- Lx; apply N.mod_le; auto).
    assert (Hlt : N.of_nat (length x) < 2 ^ UL) by (rewrite <- Lx; apply N.mod_lt; auto).
    set (q := ((length x - 1) / 8)%nat).
    set (sk := fun k => absA s (chunks 8 (firstn (8 * k) x))).
    assert (Wk : forall k, wf40 (sk k)).
    { intros k. apply wf_absA; auto. apply chunks_Forall. now apply bytes_firstn. }
    assert (Hld : forall k, (8 * k + 8 <= length x)%nat ->
      runs (load_word a cf (padd src (8 * N.of_nat k))) m (permw f (be_word (firstn 8 (skipn (8 * k) x)))) m).
    { intros k Hk. replace (8 * N.of_nat k) with (N.of_nat (8 * k)) by lia.
      apply (r_load_word_at f a rs cf Ha Hcal m src (8 * k) x); auto. lia. }
    assert (Bb : forall k, bytes (firstn 8 (skipn (8 * k) x))) by (intros; now apply bytes_firstn, bytes_skipn).
    assert (Lb : forall k, (8 * k + 8 <= length x)%nat -> length (firstn 8 (skipn (8 * k) x)) = 8%nat).
    { intros k Hk. rewrite firstn_length, skipn_length. lia. }
    set (rest := if (length x - 8 * q =? 8)%nat
      then [(xorp (sk q) (firstn 8 (skipn (8 * q) x)), 12%nat); (xorp (sk (S q)) [0x80], 12%nat)]
      else [(xorp (sk q) (skipn (8 * q) x ++ [0x80]), 12%nat)]).
    assert (Elog : absorb_in I12 s (chunks 8 (Spec.pad 8 x)) = absorb_in I12 s (chunks 8 (firstn (8 * q) x)) ++ rest).
    { rewrite absorb12_last. unfold rest. destruct (Nat.eqb_spec (length x - 8 * q) 8) as [E|E].
      - replace (length x / 8)%nat with (S q) by (unfold q; lia). rewrite absorb12_S by lia. rewrite <- app_assoc.
        rewrite (@skipn_all2 N (8 * S q) x) by lia. reflexivity.
      - replace (length x / 8)%nat with q by (unfold q in *; lia). reflexivity. }
    rewrite Elog, seen_app. clear Elog.
    eapply logs_bind; [|cbv beta|reflexivity].
    { apply (logs_while (fun k => (stf f (sk k), N.of_nat k, N.of_nat (length x - 8 * k))) (fun _ => m)
               (fun k => sn (absorb_in I12 s (chunks 8 (firstn (8 * k) x)))) q)
        with (a1 := (stf f (sk q), N.of_nat q, N.of_nat (length x - 8 * q))) (m1 := m).
      - assert ((length x / 8 <= N.to_nat (len / 8))%nat); [|unfold q; lia].
        assert (N.of_nat (length x) / 8 <= len / 8) by (apply N.div_le_mono; lia). lia.
      - intros k Hk. assert (Hk8 : (8 * k + 8 < length x)%nat) by (unfold q in Hk; lia). cbn [snd]. split; [lia|].
        unfold A128Probe.absorb_mac_full.
        exists (sn [(xorp (sk k) (firstn 8 (skipn (8 * k) x)), 12%nat)]). split; [|rewrite <- seen_app, <- absorb12_S by lia; reflexivity].
        eapply logs_step; [apply Hld; lia|sil|]. rewrite stf_blk by (auto; apply Lb; lia).
        eapply logs_last; [apply l_P12; now apply wf40_xorp| |sil].
        eapply runs_eq; [apply runs_ret| |reflexivity].
        unfold sk at 2. rewrite absA_S by lia. fold (sk k). rewrite ul_small, subl_small by lia.
        repeat f_equal; lia.
      - cbn [snd]. unfold q. lia.
      - reflexivity.
      - unfold sk. rewrite Nat.mul_0_r. change (firstn 0 x) with (@nil N). rewrite chunks_nil, Nat.sub_0_r. reflexivity.
      - reflexivity.
      - reflexivity.
      - reflexivity.
      - reflexivity. }
    cbv beta iota. apply logs_if. rewrite absA_last. unfold rest. clear rest.
    destruct (N.eqb_spec (N.of_nat (length x - 8 * q)) 8) as [E|E].
    - replace (length x - 8 * q =? 8)%nat with true by lia.
      eapply logs_step; [apply Hld; lia|sil|]. rewrite stf_blk by (auto; apply Lb; lia).
      eapply logs_bind; [apply l_P12; now apply wf40_xorp| |reflexivity].
      unfold sk. rewrite <- absA_S by lia. fold (sk (S q)).
      replace (length x / 8)%nat with (S q) by (unfold q; lia).
      rewrite skipn_all2 by lia. cbn [app]. fold (sk (S q)).
      pose proof (stf_top f a rs (sk (S q)) true Ha (Wk (S q))) as Et. unfold xor_b in Et.
      change (N.shiftl (u8 128) (8 * 7)) with 0x8000000000000000 in Et. cbn [Spec.first_bit] in Et.
      rewrite Et. apply l_P12. apply wf40_xorp; auto. repeat constructor.
    - replace (length x - 8 * q =? 8)%nat with false by lia.
      assert (Hq : (8 * q <= length x < 8 * q + 8)%nat) by (unfold q in *; lia).
      replace (length x / 8)%nat with q by lia.
      set (y := skipn (8 * q) x).
      assert (Ly : length y = (length x - 8 * q)%nat) by (unfold y; rewrite skipn_length; lia).
      assert (By : bytes y) by now apply bytes_skipn.
      set (lane := y ++ 0x80 :: repeat 0 (7 - length y)).
      assert (Ll : length lane = 8%nat) by (unfold lane; rewrite app_length; cbn [length]; rewrite repeat_length; lia).
      assert (Bl : bytes lane).
      { unfold lane. apply bytes_app. split; auto. constructor; [lia|]. apply bytes_repeat. lia. }
      eapply logs_step; [|sil|].
      { apply (runs_for (fun k => (firstn k lane, N.of_nat (8 * q + Nat.min k (length y)))) (fun _ => m))
          with (a1 := (lane, N.of_nat (8 * q + length y))) (m1 := m).
        - change (N.to_nat 8) with 8%nat. intros k Hk. rewrite (firstn_snoc lane k 0) by lia. rewrite <- Ly.
          apply runs_if. destruct (N.ltb_spec (N.of_nat k) (N.of_nat (length y))) as [Hc|Hc].
          + eapply runs_bind.
            * apply runs_load. replace (Nat.min k (length y)) with k by lia.
              rewrite (Nat2N.inj_add (8 * q) k), <- padd_padd. apply (has_skipn m src x (8 * q) Hx). fold y. lia.
            * eapply runs_eq; [apply runs_ret| |reflexivity]. fold y.
              unfold lane at 3. rewrite app_nth1 by lia. rewrite ul_small by lia. do 2 f_equal; lia.
          + apply runs_if. destruct (N.eqb_spec (N.of_nat k) (N.of_nat (length y))) as [E'|E'].
            * eapply runs_eq; [apply runs_ret| |reflexivity]. unfold lane at 3. rewrite app_nth2 by lia.
              replace (k - length y)%nat with 0%nat by lia. cbn [nth]. do 2 f_equal; lia.
            * eapply runs_eq; [apply runs_ret| |reflexivity]. unfold lane at 3. rewrite app_nth2 by lia.
              replace (k - length y)%nat with (S (k - length y - 1)) by lia. cbn [nth]. rewrite nth_repeat.
              do 2 f_equal; lia.
        - cbn [firstn Nat.min]. rewrite ul_small by lia. f_equal. lia.
        - reflexivity.
        - change (N.to_nat 8) with 8%nat. rewrite firstn_all2 by lia. do 2 f_equal. lia.
        - reflexivity. }
      cbn [fst]. rewrite (lane_in f a rs) by auto. rewrite stf_blk by auto.
      replace (xorp (sk q) lane) with (xorp (sk q) (y ++ [0x80])).
      2:{ unfold lane. change (0x80 :: repeat 0 (7 - length y)) with ([0x80] ++ repeat 0 (7 - length y)). now rewrite app_assoc, xorp_zeros. }
      apply l_P12. apply wf40_xorp; [|apply Wk]. apply bytes_app. split; auto. repeat constructor.
  Qed.

  Lemma l_isap_rk_64 m k ivp yp out outlen K iv Y n :
    has m k K -> has m ivp iv -> has m yp Y -> length K = 16%nat -> length iv = 8%nat -> length Y = 16%nat -> bytes K -> bytes iv ->
    n = (if N.eqb outlen 24 then 24%nat else 16%nat) -> room m out n ->
    al8 cf k -> al8 cf ivp -> al8 cf out ->
    logs (A128Probe.isap_rk_64 a cf note k ivp yp 16 out outlen) m tt (putp m out (firstn n (rk12 K iv Y))) (sn (rk_in I12 K iv Y)).
  Proof.
    intros Hk Hi Hy LK Li LY BK Bi En Ro Alk Ali Alo. unfold A128Probe.isap_rk_64.
    eapply logs_step; [apply (r_load_word_at f a rs cf Ha Hcal m k 0 K); auto; lia|sil|].
    eapply logs_step; [apply (r_load_word_at f a rs cf Ha Hcal m k 8 K); auto; lia|sil|].
    eapply logs_step; [apply (r_load_word_at f a rs cf Ha Hcal m ivp 0 iv); auto; lia|sil|].
    rewrite stf_init by auto. change (Spec.zpad IA (K ++ iv)) with (Spec.zpad I12 (K ++ iv)).
    assert (Wz : wf40 (Spec.zpad I12 (K ++ iv))) by (apply wf_zpad12; [now apply bytes_app|rewrite app_length; lia]).
    set (s0 := ascon_p 12 (Spec.zpad I12 (K ++ iv))).
    assert (W0 : wf40 s0) by now apply wf40_ascon.
    set (bits := Spec.msb_bits Y).
    assert (Hb : length bits = 128%nat) by (unfold bits; rewrite msb_bits_length; lia).
    assert (Wj : forall j, wf40 (fold12 (firstn j bits) s0)) by (intros; now apply wf_fold12).
    assert (Elog : sn (rk_in I12 K iv Y) = sn [(Spec.zpad I12 (K ++ iv), 12%nat)] ++ sn (sB_in I12 s0 (firstn 127 bits)) ++
      sn [(xorp (fold12 (firstn 127 bits) s0) (Spec.first_bit (nth 127 bits false)), 12%nat)]).
    { rewrite <- !seen_app. now rewrite (rk12_in K iv Y s0 bits). }
    rewrite Elog. clear Elog.
    eapply logs_bind; [now apply l_P12| |reflexivity]. fold s0.
    eapply logs_bind; [|cbv beta|reflexivity].
    { apply (logs_for (fun i => stf f (fold12 (firstn i bits) s0)) (fun _ => m) (fun i => sn (sB_in I12 s0 (firstn i bits)))) with (a1 := stf f (fold12 (firstn 127 bits) s0)) (m1 := m);
        try reflexivity.
      change (N.to_nat (sub64 (u64 (16 * 8)) 1)) with 127%nat. intros i Hi127.
      exists (sn [(xorp (fold12 (firstn i bits) s0) (Spec.first_bit (nth i bits false)), 12%nat)]). split.
      2:{ rewrite <- seen_app, (firstn_snoc bits i false) by lia. now rewrite sB_in_snoc. }
      eapply logs_step; [|sil|].
      { apply runs_load. replace (N.of_nat i / 8) with (N.of_nat (i / 8)) by lia. apply Hy. lia. }
      rewrite (rk_bit_64 f a rs Ha) by (auto; lia).
      assert (Ei : N.testbit (nth (i / 8) Y 0) (7 - N.of_nat i mod 8) = nth i bits false).
      { unfold bits. rewrite nth_msb_bits by lia. f_equal. }
      rewrite Ei.
      eapply logs_eq; [apply l_P12; now apply wf_first_bit| |reflexivity|reflexivity].
      rewrite (firstn_snoc bits i false) by lia. rewrite fold_left_app. reflexivity. }
    eapply logs_step; [|sil|].
    { apply runs_load. change (sub64 16 1) with (N.of_nat 15). apply Hy. lia. }
    assert (Eb : nth 127 bits false = N.testbit (nth 15 Y 0) 0) by (unfold bits; rewrite nth_msb_bits by lia; reflexivity).
    eapply logs_last; [| |sil].
    { pose proof (rk_bit_64 f a rs Ha (fold12 (firstn 127 bits) s0) (nth 15 Y 0) 0 (Wj 127%nat) ltac:(lia)) as E.
      rewrite N.shiftr_0_r in E. rewrite E. rewrite <- Eb. apply l_P12. now apply wf_first_bit. }
    unfold bits, s0. rewrite <- rk12_eq by auto.
    set (R := rk12 K iv Y). assert (WR : wf40 R) by now apply wf_rk12.
    eapply runs_bind.
    { eapply runs_eq; [|reflexivity|].
      - rewrite <- (putp_nil m out) at 1. apply (r_store_lane f a rs cf Ha Hcal m out R 0 n); auto; try lia; rewrite En; destruct (outlen =? 24); lia.
      - reflexivity. }
    eapply runs_bind.
    { apply (r_store_lane f a rs cf Ha Hcal m out R 1 n); auto; try lia; rewrite En; destruct (outlen =? 24); lia. }
    apply runs_if_skip; intros E; rewrite E in En; subst n.
    - apply (r_store_lane f a rs cf Ha Hcal m out R 2 24); auto.
    - reflexivity.
  Qed.

  Hypothesis Hlax : strict cf = false.
  Let al p : al8 cf p := al8_lax cf p Hlax.

  Lemma l_mac_64 mm k npub ad alen c clen tag K Nn A C : consts_ok cs12 mm ->
    bytes_at mm k K -> length K = 16%nat -> bytes_at mm npub Nn -> length Nn = 16%nat -> bytes_at mm ad A -> bytes_at mm c C ->
    ul UL alen = N.of_nat (length A) -> ul UL clen = N.of_nat (length C) -> room mm tag 16 ->
    logs (A128Probe.isap_mac_64 a UL cf note k npub ad alen c clen tag) mm tt (putp mm tag (Spec.isap_mac (v_inst A128) K Nn A C))
      (sn (mac_in I12 K Nn A C)).
  Proof.
    intros Hc [BK Hk] LK [BN Hn] LN [BA HA] [BC HC] La Lc Rt.
    destruct (cs12_ivs mm Hc) as (I1 & I2 & I3). change (v_inst A128) with I12. rewrite mac12_eq.
    set (s := mst12 Nn A C). assert (W : wf40 s) by now apply wf_mst12.
    assert (WK : wf40 (kst12 K s)) by now apply wf_kst12.
    unfold A128Probe.isap_mac_64. eapply logs_eq; [|reflexivity|reflexivity|].
    { apply (logs_with_block _ _ _ _ _ (map Some (kst12 K s))).
    set (M0 := mm ++ [uninit 40]). set (sp := P (length mm) 0).
    assert (F0 : forall l q bs, has mm q bs -> has (mm ++ l) q bs) by (intros; now apply has_app).
    eapply logs_step; [apply (r_load_word_at f a rs cf Ha Hcal M0 npub 0 Nn); auto; try lia; now apply F0|sil|].
    eapply logs_step; [apply (r_load_word_at f a rs cf Ha Hcal M0 npub 8 Nn); auto; try lia; now apply F0|sil|].
    assert (Bi : bytes (Spec.iv_A I12)) by (apply bytes_iv12; lia).
    eapply logs_step; [apply (r_load_word_at f a rs cf Ha Hcal M0 RefIsap.ISAP_IV_A 0 (Spec.iv_A I12)); auto; try (cbn [Spec.iv_A Spec.iv length]; lia); now apply F0|sil|].
    rewrite stf_init by auto. change (Spec.zpad IA (Nn ++ Spec.iv_A I12)) with (Spec.zpad I12 (Nn ++ Spec.iv_A I12)).
    assert (Wz : wf40 (Spec.zpad I12 (Nn ++ Spec.iv_A I12))).
    { apply wf_zpad12; [now apply bytes_app|rewrite app_length; cbn [Spec.iv_A Spec.iv length]; lia]. }
    eapply logs_bind; [now apply l_P12| |reflexivity].
    set (s1 := ascon_p 12 _). assert (W1 : wf40 s1) by now apply wf40_ascon.
    eapply logs_bind; [apply (l_absorb_mac M0 ad A s1); auto; now apply F0| |reflexivity].
    set (s2 := absA s1 _). assert (W2 : wf40 s2) by (apply wf_absA; auto; now apply chunks_Forall, bytes_pad).
    rewrite (stf_dom f a rs) by auto.
    eapply logs_bind; [apply (l_absorb_mac M0 c C); auto; [|now apply F0]|cbv beta|reflexivity].
    { apply wf40_xorp; auto. apply bytes_app. split; [apply bytes_repeat; lia|repeat constructor]. }
    change (absA (xorp s2 _) _) with s.
    assert (R0 : room M0 sp 40).
    { apply room_of_le. unfold sp, M0. cbn [pb po]. rewrite blk_mid, uninit_length. lia. }
    eapply logs_step; [rewrite <- (putp_nil M0 sp) at 1; apply (r_store_lane f a rs cf Ha Hcal M0 sp s 0 40); auto; lia|sil|].
    eapply logs_step; [apply (r_store_lane f a rs cf Ha Hcal M0 sp s 1 40); auto; lia|sil|].
    eapply logs_step; [apply (r_store_lane f a rs cf Ha Hcal M0 sp s 2 40); auto; lia|sil|].
    eapply logs_step; [apply (r_store_lane f a rs cf Ha Hcal M0 sp s 3 40); auto; lia|sil|].
    eapply logs_step; [apply (r_store_lane f a rs cf Ha Hcal M0 sp s 4 40); auto; lia|sil|].
    assert (E1 : putp M0 sp (firstn (8 * 5) s) = mm ++ [map Some s]).
    { rewrite firstn_all2 by (rewrite (proj1 W); lia). unfold M0, sp. unfold putp, put. cbn [pb po]. rewrite blk_mid, upd_mid.
      change (N.to_nat 0) with 0%nat. do 2 f_equal. apply splice_all. now rewrite map_length, uninit_length, (proj1 W). }
    rewrite E1. set (M1 := mm ++ [map Some s]).
    assert (Hs : has M1 sp s) by (apply has_blk0, blk_mid).
    eapply logs_bind; [|cbv beta|reflexivity].
    { apply (l_isap_rk_64 M1 k RefIsap.ISAP_IV_KA sp sp _ K (Spec.iv_KA I12) (firstn 16 s) 16); auto.
      - now apply F0.
      - now apply F0.
      - now apply has_firstn.
      - rewrite firstn_length, (proj1 W). reflexivity.
      - apply bytes_iv12. lia.
      - apply room_of_le. unfold sp, M1. cbn [pb po]. rewrite blk_mid, map_length, (proj1 W). lia. }
    assert (E2 : putp M1 sp (firstn 16 (rk12 K (Spec.iv_KA I12) (firstn 16 s))) = mm ++ [map Some (kst12 K s)]).
    { assert (WR : wf40 (rk12 K (Spec.iv_KA I12) (firstn 16 s))).
      { apply wf_rk12; auto; [rewrite firstn_length, (proj1 W); reflexivity|apply bytes_iv12; lia]. }
      unfold M1, sp, putp, put. cbn [pb po]. rewrite blk_mid, upd_mid. change (N.to_nat 0) with 0%nat.
      rewrite splice_map. do 3 f_equal. unfold splice, kst12.
      rewrite (firstn_length 16), (proj1 WR). reflexivity. }
    rewrite E2. set (M2 := mm ++ [map Some (kst12 K s)]).
    assert (Hs2 : has M2 sp (kst12 K s)) by (apply has_blk0, blk_mid).
    eapply logs_step; [apply (stf_load f a rs cf Ha Hcal Hlax M2 sp _ Hs2 WK 0); lia|sil|].
    eapply logs_step; [apply (stf_load f a rs cf Ha Hcal Hlax M2 sp _ Hs2 WK 1); lia|sil|].
    eapply logs_step; [apply (stf_load f a rs cf Ha Hcal Hlax M2 sp _ Hs2 WK 2); lia|sil|].
    eapply logs_step; [apply (stf_load f a rs cf Ha Hcal Hlax M2 sp _ Hs2 WK 3); lia|sil|].
    eapply logs_step; [apply (stf_load f a rs cf Ha Hcal Hlax M2 sp _ Hs2 WK 4); lia|sil|].
    rewrite stf_list by auto.
    eapply logs_last; [now apply l_P12| |sil].
    set (s3 := ascon_p 12 (kst12 K s)). assert (W3 : wf40 s3) by now apply wf40_ascon.
    assert (Rt2 : room M2 tag 16) by now apply room_app.
    eapply runs_bind; [rewrite <- (putp_nil M2 tag) at 1; apply (r_store_lane f a rs cf Ha Hcal M2 tag s3 0 16); auto; lia|].
    eapply runs_eq; [apply (r_store_lane f a rs cf Ha Hcal M2 tag s3 1 16); auto; lia|reflexivity|].
    unfold M2. apply putp_app. rewrite firstn_length, (proj1 W3). exact Rt. }
    rewrite <- !seen_app. f_equal. unfold mac_in, hash_in. cbv zeta. cbn [app]. rewrite <- app_assoc. reflexivity.
  Qed.

  Hypothesis HUL : UL <= 64.

  Lemma r_enc_last mm blk1 mp c K Nn T : bytes K -> length K = 16%nat -> bytes Nn -> length Nn = 16%nat -> bytes_at mm mp T ->
    N.of_nat (length T) < 2 ^ UL -> (0 < length T)%nat -> room mm c (length T) -> fwd_ok c mp (length T) ->
    let ct := Spec.isap_enc I12 K Nn T in let q := ((length T - 1) / 8)%nat in
    runs (enc_last_64 a cf UL mp c (stf f (iter (ascon_p 12) (S q) (est12 K Nn)), N.of_nat q, N.of_nat (length T - 8 * q)))
         (putp (mm ++ [blk1]) c (firstn (8 * q) ct)) tt (putp mm c ct ++ [blk1]).
  Proof.
    intros BK LK BN LN [BT HT] LU HT0 Rc Hf ct q.
        set (M1 := mm ++ [blk1]). set (s0 := est12 K Nn). set (pE := ascon_p 12). assert (W0 : wf40 s0) by now apply wf_est12.
    assert (Wi : forall j, wf40 (iter pE j s0)) by (intros j; apply iter_ok; auto; intros; now apply wf40_ascon).
    assert (Lct : length ct = length T) by now apply (v_enc_length A128).
    assert (HT1 : has M1 mp T) by now apply has_app.
    assert (Rc1 : room M1 c (length T)) by now apply room_app.
    assert (Rk : forall n, (n <= length T)%nat -> room M1 c (length (firstn n ct))).
    { intros n Hnl i Hi. apply Rc1. rewrite firstn_length in Hi. lia. }
    unfold enc_last_64.
    apply runs_if.
    assert (Fin : forall n, (length T <= n)%nat -> putp M1 c (firstn n ct) = putp mm c ct ++ [blk1]).
    { intros n Hn'. rewrite firstn_all2 by lia. unfold M1. apply putp_app. now rewrite Lct. }
    destruct (N.eqb_spec (N.of_nat (length T - 8 * q)) 8) as [E|E].
    - eapply runs_eq; [apply (r_enc_lane f a rs cf UL Ha Hcal Hlax HUL M1 mp c K Nn T q); auto; lia|reflexivity|]. apply Fin. lia.
    - assert (Hq : (8 * q <= length T < 8 * q + 8)%nat) by (unfold q in *; lia).
      eapply runs_eq; [|reflexivity|apply (Fin (length T)); lia].
      eapply runs_bind; [|apply runs_ret].
      apply (runs_for (fun j => N.of_nat (8 * q + j)) (fun j => putp M1 c (firstn (8 * q + j) ct)))
        with (a1 := N.of_nat (length T)).
      + rewrite Nat2N.id. intros j Hj.
        eapply runs_bind.
        { apply runs_load. rewrite <- (padd_0 (padd mp _)). change 0 with (N.of_nat 0) at 1.
          apply (next_text cf UL Hcal Hlax HUL M1 mp c T ct (8 * q + j) 1); auto; try lia. rewrite firstn_length, skipn_length. lia. }
        eapply runs_bind.
        { apply runs_store1. rewrite inside_putp by (apply Rk; lia). apply Rc1. lia. }
        eapply runs_eq; [apply runs_ret| |].
        * rewrite ul_small by lia. lia.
        * rewrite Nat.add_succ_r. rewrite (firstn_snoc ct (8 * q + j) 0) by lia.
          rewrite <- putp_app_bytes.
          -- rewrite firstn_length. f_equal; [f_equal; lia|]. f_equal.
             unfold ct. rewrite enc12_nth by (auto; lia). rewrite N.lxor_comm, Nat2N.id. rewrite nth_firstn_lt, nth_skipn_add by lia.
             rewrite <- nth_word_le with (n := 8%nat) by lia.
             rewrite (proj1 (lane_out f a rs (iter pE (S q) s0) 0 Ha (Wi (S q)) ltac:(lia))). unfold lane_bytes.
             rewrite nth_firstn_lt by lia. rewrite Nat.mul_0_r. cbn [skipn]. replace ((8 * q + j) / 8)%nat with q by lia.
             fold s0 pE. f_equal; f_equal; lia.
          -- rewrite <- firstn_snoc by lia. apply Rk. lia.
      + rewrite Nat.add_0_r, ul_small by lia. lia.
      + now rewrite Nat.add_0_r.
      + rewrite Nat2N.id. lia.
      + rewrite Nat2N.id. f_equal. f_equal. lia.
  Qed.

  Lemma l_enc_64 mm k npub mp c K Nn T : consts_ok cs12 mm ->
    bytes_at mm k K -> length K = 16%nat -> bytes_at mm npub Nn -> length Nn = 16%nat -> bytes_at mm mp T ->
    N.of_nat (length T) < 2 ^ UL -> N.of_nat (length T) < 2 ^ 64 -> (0 < length T)%nat -> room mm c (length T) -> fwd_ok c mp (length T) ->
    logs (A128Probe.isap_enc_64 a UL cf note k npub mp (N.of_nat (length T)) c) mm tt (putp mm c (Spec.isap_enc (v_inst A128) K Nn T))
      (sn (enc_in I12 K Nn (length T))).
  Proof.
    intros Hc HK LK HN LN HTT LU L64 HT0 Rc Hf. pose proof HK as [BK Hk]. pose proof HN as [BN Hn]. pose proof HTT as [BT HT].
    destruct (cs12_ivs mm Hc) as (I1 & I2 & I3).
    assert (Bi : bytes (Spec.iv_KE I12)) by (apply bytes_iv12; lia).
    set (R := rk12 K (Spec.iv_KE I12) Nn). assert (WR : wf40 R) by now apply wf_rk12.
    set (blk1 := splice (uninit 40) 0 (map Some (firstn 24 R))).
    set (q := ((length T - 1) / 8)%nat).
    assert (Elog : sn (enc_in I12 K Nn (length T)) = sn (rk_in I12 K (Spec.iv_KE I12) Nn) ++ sn [(est12 K Nn, 12%nat)] ++
      sn (stream I12 (ascon_p 12 (est12 K Nn)) q)).
    { rewrite <- !seen_app. unfold enc_in. replace (length T =? 0)%nat with false by lia. do 2 f_equal.
      change (Spec.i_rate I12) with 8%nat. replace ((length T + 8 - 1) / 8)%nat with (S q) by (unfold q; lia). reflexivity. }
    rewrite Elog. clear Elog.
    unfold A128Probe.isap_enc_64. apply (logs_with_block _ _ _ _ _ blk1).
    set (M0 := mm ++ [uninit 40]). set (sp := P (length mm) 0).
    assert (R0 : room M0 sp 24).
    { apply room_of_le. unfold sp, M0. cbn [pb po]. rewrite blk_mid, uninit_length. lia. }
    eapply logs_bind; [|cbv beta|reflexivity].
    { apply (l_isap_rk_64 M0 k RefIsap.ISAP_IV_KE npub sp _ K (Spec.iv_KE I12) Nn 24); auto; now apply has_app. }
    fold R.
    assert (E1 : putp M0 sp (firstn 24 R) = mm ++ [blk1]).
    { unfold M0, sp, putp, put. cbn [pb po]. rewrite blk_mid, upd_mid. reflexivity. }
    assert (Hs : has (putp M0 sp (firstn 24 R)) sp (firstn 24 R)).
    { apply has_putp_same. rewrite firstn_length, (proj1 WR). exact R0. }
    rewrite E1 in *. set (M1 := mm ++ [blk1]) in *.
    assert (F1 : forall q bs, has mm q bs -> has M1 q bs) by (intros; now apply has_app).
    set (s0 := est12 K Nn). assert (W0 : wf40 s0) by now apply wf_est12.
    assert (G : forall i, (i < 3)%nat -> runs (load_word a cf (padd sp (8 * N.of_nat i))) M1 (getx (stf f s0) i) M1).
    { intros i Hi. replace (8 * N.of_nat i) with (N.of_nat (8 * i)) by lia. rewrite stf_getx by (auto; lia).
      eapply runs_eq; [apply (r_load_word_at f a rs cf Ha Hcal M1 sp (8 * i) (firstn 24 R)); auto| |reflexivity].
      - apply bytes_firstn, WR.
      - rewrite firstn_length, (proj1 WR). lia.
      - lia.
      - f_equal. f_equal. unfold lane_bytes, s0, est12. fold R. rewrite skipn_app, firstn_app.
        rewrite skipn_length, firstn_length, (proj1 WR). replace (8 - _)%nat with 0%nat by lia. cbn [firstn]. now rewrite app_nil_r. }
    assert (G3 : forall i, (i < 2)%nat -> runs (load_word a cf (padd npub (8 * N.of_nat i))) M1 (getx (stf f s0) (3 + i)) M1).
    { intros i Hi. replace (8 * N.of_nat i) with (N.of_nat (8 * i)) by lia. rewrite stf_getx by (auto; lia).
      eapply runs_eq; [apply (r_load_word_at f a rs cf Ha Hcal M1 npub (8 * i) Nn); auto; lia| |reflexivity].
      f_equal. f_equal. unfold lane_bytes, s0, est12. fold R. rewrite skipn_app, firstn_length, (proj1 WR).
      rewrite (skipn_all2 (firstn 24 R)) by (rewrite firstn_length, (proj1 WR); lia). cbn [app]. do 2 f_equal. lia. }
    eapply logs_step; [apply (G 0%nat); lia|sil|].
    eapply logs_step; [apply (G 1%nat); lia|sil|].
    eapply logs_step; [apply (G 2%nat); lia|sil|].
    eapply logs_step; [apply (G3 0%nat); lia|sil|].
    eapply logs_step; [apply (G3 1%nat); lia|sil|].
    change (3 + 0)%nat with 3%nat. change (3 + 1)%nat with 4%nat. rewrite stf_list by auto.
    eapply logs_bind; [now apply l_P12| |reflexivity].
    set (pE := ascon_p 12).
    assert (Wi : forall j, wf40 (iter pE j s0)) by (intros j; apply iter_ok; auto; intros; now apply wf40_ascon).
    change (pE s0) with (iter pE 1 s0).
    set (ct := Spec.isap_enc I12 K Nn T).
    assert (Lct : length ct = length T) by now apply (v_enc_length A128).
    assert (HT1 : has M1 mp T) by auto.
    assert (Rc1 : room M1 c (length T)) by now apply room_app.
    assert (Rk : forall n, (n <= length T)%nat -> room M1 c (length (firstn n ct))).
    { intros n Hnl i Hi. apply Rc1. rewrite firstn_length in Hi. lia. }
    assert (Lane : forall j, (8 * j + 8 <= length T)%nat -> _) by (intros j Hj; exact (r_enc_lane f a rs cf UL Ha Hcal Hlax HUL M1 mp c K Nn T j LK BK LN BN BT HT1 Rc1 Hf Hj)).
    cbv zeta in Lane. fold ct pE s0 in Lane.
    eapply logs_last; [| |unfold enc_last_64; sil].
    { apply (logs_while (fun j => (stf f (iter pE (S j) s0), N.of_nat j, N.of_nat (length T - 8 * j)))
               (fun j => putp M1 c (firstn (8 * j) ct)) (fun j => sn (stream I12 (ascon_p 12 s0) j)) q)
        with (a1 := (stf f (iter pE (S q) s0), N.of_nat q, N.of_nat (length T - 8 * q)))
             (m1 := putp M1 c (firstn (8 * q) ct)).
      - unfold q. lia.
      - intros j Hj. assert (Hj8 : (8 * j + 8 < length T)%nat) by (unfold q in Hj; lia).
        cbn [snd]. split; [lia|]. unfold A128Probe.enc_full_64.
        exists (sn [(iter pE (S j) s0, 12%nat)]). split; [|rewrite <- seen_app, stream_snoc, (iter_S pE); reflexivity].
        pose proof (Lane j ltac:(lia)) as HL. apply logs_assoc. eapply logs_step; [exact HL|sil|].
        eapply logs_last; [apply l_P12; apply Wi| |sil].
        eapply runs_eq; [apply runs_ret| |reflexivity].
        rewrite ul_small, sub64_small by lia. repeat f_equal; lia.
      - cbn [snd]. unfold q. lia.
      - reflexivity.
      - rewrite Nat.sub_0_r. reflexivity.
      - rewrite Nat.mul_0_r. change (firstn 0 ct) with (@nil N). apply putp_nil.
      - reflexivity.
      - reflexivity.
      - reflexivity. }
    apply r_enc_last; auto.
  Qed.
End Opt64Log.

(* ---------- opt_32, opt_32_armv67m ---------- *)

Section Opt32Log.
  Variables (f : nat -> nat) (a u : asconp) (rs ru : list nat) (cf : cfg) (leak : state -> N).
  Hypothesis Ha : ap_ok f a rs.
  Hypothesis Hu : ap_ok f u ru.
  Hypothesis Hr12 : In 12%nat rs.
  Hypothesis Hu12 : In 12%nat ru.
  Hypothesis Hlax : strict cf = false.
  Let al p : al8 cf p := al8_lax cf p Hlax.
  Let Hcal : forall i, (i < 4)%nat -> al8 cf (P i 0) := fun i _ => al (P i 0).
  Let al4 p n : aligned cf p n = true.
  Proof. unfold aligned. now rewrite Hlax. Qed.
  Notation note := (OptProbe.record leak).
  Notation sn := (seen (fun s => leak (held a s))).
  Notation stf_blk := (A128Proof.stf_blk f).

  Lemma l_a s (m : mem) : wf40 s -> logs (OptProbe.perm a note 12 (stf f s)) m (stf f (ascon_p 12 s)) m (sn [(s, 12%nat)]).
  Proof. intros W. now apply (l_perm f a rs leak Ha 12). Qed.
  Lemma l_u s (m : mem) : wf40 s -> logs (OptProbe.perm u note 12 (stf f s)) m (stf f (ascon_p 12 s)) m (sn [(s, 12%nat)]).
  Proof.
    intros W. eapply logs_eq; [now apply (l_perm f u ru leak Hu 12)|reflexivity|reflexivity|].
    cbn [seen map concat fst snd app]. now rewrite (held_stf f u ru leak Hu), (held_stf f a rs leak Ha).
  Qed.

  Lemma l_isap_rk_32 m k ivp yp out outlen K iv Y n :
    has m k K -> has m ivp iv -> has m yp Y -> length K = 16%nat -> length iv = 8%nat -> length Y = 16%nat -> bytes K -> bytes iv ->
    n = (if N.ltb 16 outlen then 3%nat else 2%nat) -> room m out (8 * n) ->
    logs (A128Probe.isap_rk_32 a u cf note k ivp yp out outlen) m tt (putp m out (eo_out f n (rk12 K iv Y))) (sn (rk_in I12 K iv Y)).
  Proof.
    intros Hk Hi Hy LK Li LY BK Bi En Ro. unfold A128Probe.isap_rk_32.
    eapply logs_step; [apply (r_load_word_at f a rs cf Ha Hcal m k 0 K); auto; lia|sil|].
    eapply logs_step; [apply (r_load_word_at f a rs cf Ha Hcal m k 8 K); auto; lia|sil|].
    eapply logs_step; [apply (r_load_word_at f a rs cf Ha Hcal m ivp 0 iv); auto; lia|sil|].
    rewrite stf_init by auto. change (Spec.zpad IA (K ++ iv)) with (Spec.zpad I12 (K ++ iv)).
    assert (Wz : wf40 (Spec.zpad I12 (K ++ iv))) by (apply wf_zpad12; [now apply bytes_app|rewrite app_length; lia]).
    set (s0 := ascon_p 12 (Spec.zpad I12 (K ++ iv))).
    assert (W0 : wf40 s0) by now apply wf40_ascon.
    set (bits := Spec.msb_bits Y).
    assert (Hb : length bits = 128%nat) by (unfold bits; rewrite msb_bits_length; lia).
    assert (Wj : forall j, wf40 (fold12 (firstn j bits) s0)) by (intros; now apply wf_fold12).
    assert (Elog : sn (rk_in I12 K iv Y) = sn [(Spec.zpad I12 (K ++ iv), 12%nat)] ++ sn (sB_in I12 s0 (firstn 127 bits)) ++
      sn [(xorp (fold12 (firstn 127 bits) s0) (Spec.first_bit (nth 127 bits false)), 12%nat)]).
    { rewrite <- !seen_app. now rewrite (rk12_in K iv Y s0 bits). }
    rewrite Elog. clear Elog.
    eapply logs_bind; [now apply l_a| |reflexivity]. fold s0.
    eapply logs_bind; [|cbv beta|reflexivity].
    { apply (logs_for (fun i => stf f (fold12 (firstn i bits) s0)) (fun _ => m) (fun i => sn (sB_in I12 s0 (firstn i bits)))) with (a1 := stf f (fold12 (firstn 127 bits) s0)) (m1 := m);
        try reflexivity.
      change (N.to_nat 127) with 127%nat. intros i Hi127.
      exists (sn [(xorp (fold12 (firstn i bits) s0) (Spec.first_bit (nth i bits false)), 12%nat)]). split.
      2:{ rewrite <- seen_app, (firstn_snoc bits i false) by lia. now rewrite sB_in_snoc. }
      eapply logs_step; [|sil|].
      { apply runs_load. replace (N.of_nat i / 8) with (N.of_nat (i / 8)) by lia. apply Hy. lia. }
      cbv zeta. rewrite (rk_bit_32 f a rs Ha) by (auto; lia).
      assert (Ei : N.testbit (nth (i / 8) Y 0) (7 - N.of_nat i mod 8) = nth i bits false).
      { unfold bits. rewrite nth_msb_bits by lia. f_equal. }
      rewrite Ei.
      eapply logs_eq; [apply l_u; now apply wf_first_bit| |reflexivity|reflexivity].
      rewrite (firstn_snoc bits i false) by lia. rewrite fold_left_app. reflexivity. }
    eapply logs_step; [|sil|].
    { apply runs_load. change 15 with (N.of_nat 15). apply Hy. lia. }
    assert (Eb : nth 127 bits false = N.testbit (nth 15 Y 0) 0) by (unfold bits; rewrite nth_msb_bits by lia; reflexivity).
    eapply logs_last; [| |sil].
    { pose proof (rk_bit_32 f a rs Ha (fold12 (firstn 127 bits) s0) (nth 15 Y 0) 0 (Wj 127%nat) ltac:(lia)) as E.
      rewrite N.shiftr_0_r in E.
      assert (E8 : Mem.u8 (N.shiftl (N.land (nth 15 Y 0) 1) 7) = N.shiftl (N.land (nth 15 Y 0) 1) 7).
      { pose proof (top_bit (nth 15 Y 0) 0 ltac:(lia)) as Et. rewrite N.shiftr_0_r in Et. rewrite Et. now destruct (N.testbit _ 0). }
      rewrite E8, E. rewrite <- Eb. apply l_a. now apply wf_first_bit. }
    unfold bits, s0. rewrite <- rk12_eq by auto.
    set (R := rk12 K iv Y). assert (WR : wf40 R) by now apply wf_rk12.
    eapply runs_bind.
    { eapply runs_eq; [|reflexivity|reflexivity]. rewrite <- (putp_nil m out) at 1. apply (r_store_out f cf Hlax m out R n 0); auto.
      rewrite En. destruct (16 <? outlen); lia. }
    eapply runs_bind.
    { apply (r_store_out f cf Hlax m out R n 1); auto. rewrite En. destruct (16 <? outlen); lia. }
    apply runs_if_skip; intros E; rewrite E in En; subst n.
    - apply (r_store_out f cf Hlax m out R 3 2); auto.
    - reflexivity.
  Qed.

  Lemma l_absorb_32 m src x s : wf40 s -> has m src x -> bytes x -> N.of_nat (length x) < 2 ^ 64 ->
    logs (A128Probe.absorb_32 a u cf note (stf f s) src (N.of_nat (length x))) m (stf f (absA s (chunks 8 (Spec.pad 8 x)))) m
      (sn (absorb_in I12 s (chunks 8 (Spec.pad 8 x)))).
  Proof.
    intros W Hx Bx Lx. unfold A128Probe.absorb_32.
    set (q := (length x / 8)%nat).
    set (sk := fun k => absA s (chunks 8 (firstn (8 * k) x))).
    assert (Wk : forall k, wf40 (sk k)).
    { intros k. apply wf_absA; auto. apply chunks_Forall. now apply bytes_firstn. }
    set (y := skipn (8 * q) x).
    assert (Ly : length y = (length x mod 8)%nat) by (unfold y, q; rewrite skipn_length; lia).
    assert (By : bytes y) by now apply bytes_skipn.
    rewrite absA_last, absorb12_last. fold q y. fold (sk q). rewrite seen_app.
    eapply logs_bind; [|cbv beta|reflexivity].
    { apply (logs_while (fun k => (stf f (sk k), padd src (N.of_nat (8 * k)), N.of_nat (length x - 8 * k)))
                        (fun _ => m) (fun k => sn (absorb_in I12 s (chunks 8 (firstn (8 * k) x)))) q) with (a1 := (stf f (sk q), padd src (N.of_nat (8 * q)), N.of_nat (length y))) (m1 := m).
      - unfold q. lia.
      - intros k Hk. assert (Hk8 : (8 * k + 8 <= length x)%nat) by (unfold q in Hk; lia). cbn [snd]. split; [lia|]. unfold A128Probe.absorb_full_32.
        exists (sn [(xorp (sk k) (firstn 8 (skipn (8 * k) x)), 12%nat)]). split; [|rewrite <- seen_app, <- absorb12_S by lia; reflexivity].
        eapply logs_step; [apply (r_load_word_at f a rs cf Ha Hcal m src (8 * k) x); auto; lia|sil|].
        rewrite stf_blk; [|apply Wk|now apply bytes_firstn, bytes_skipn|rewrite firstn_length, skipn_length; lia].
        eapply logs_last; [apply l_u; apply wf40_xorp; [now apply bytes_firstn, bytes_skipn|apply Wk]| |sil].
        eapply runs_eq; [apply runs_ret| |reflexivity].
        unfold sk at 2. rewrite absA_S by lia. fold (sk k). rewrite padd_padd, sub64_small by lia.
        repeat f_equal; lia.
      - cbn [snd]. unfold q. lia.
      - reflexivity.
      - unfold sk. rewrite Nat.mul_0_r. change (firstn 0 x) with (@nil N). rewrite chunks_nil.
        change (N.of_nat 0) with 0. rewrite padd_0, Nat.sub_0_r. reflexivity.
      - reflexivity.
      - rewrite Ly. f_equal. unfold q. lia.
      - reflexivity.
      - reflexivity. }
    cbv beta iota.
    assert (B80 : bytes (y ++ [0x80])) by (apply bytes_app; split; auto; repeat constructor).
    destruct (Nat.eq_dec (length y) 0) as [E0|E0].
    - assert (E : y = []) by (destruct y; auto; discriminate). rewrite E in *. cbn [app length].
      change (N.of_nat 0) with 0.
      eapply logs_bind; [apply logs_if; cbn [N.ltb N.compare]; apply logs_ret|cbv beta|reflexivity].
      apply logs_if. cbn [N.eqb].
      pose proof (stf_top f a rs (sk q) true Ha (Wk q)) as Et. unfold xor_b in Et.
      change (N.shiftl (u8 128) (8 * 7)) with (lane_eo 0 0x80000000) in Et. cbn [Spec.first_bit] in Et.
      rewrite Et. apply l_a. apply wf40_xorp; auto.
    - eapply logs_bind; [|cbv beta|apply app_nil_r].
      { apply logs_if. replace (0 <? N.of_nat (length y)) with true by lia.
        eapply logs_step; [|sil|].
        { apply (runs_for (fun k => (part (firstn k y), padd src (N.of_nat (8 * q + k)))) (fun _ => m))
            with (a1 := (part y, padd src (N.of_nat (8 * q + length y)))) (m1 := m).
          - intros k Hk. rewrite Nat2N.id in Hk. eapply runs_bind.
            + apply runs_load. rewrite (Nat2N.inj_add (8 * q) k), <- padd_padd.
              apply (has_skipn m src x (8 * q) Hx). exact Hk.
            + eapply runs_eq; [apply runs_ret| |reflexivity].
              rewrite (firstn_snoc y k 0) by lia.
              rewrite <- (part_snoc cf).
              * rewrite firstn_length. rewrite padd_padd. fold y. repeat f_equal; lia.
              * now apply bytes_firstn.
              * rewrite firstn_length. lia.
          - cbn [firstn]. rewrite Nat.add_0_r. reflexivity.
          - reflexivity.
          - rewrite Nat2N.id, firstn_all. reflexivity.
          - reflexivity. }
        cbn [fst]. cbv zeta. rewrite (part_snoc cf) by (auto; lia).
        assert (L80 : length (y ++ [0x80]) = S (length y)) by (rewrite app_length; cbn [length]; lia).
        set (z := (y ++ [0x80]) ++ repeat 0 (8 - length (y ++ [0x80]))).
        assert (Bz : bytes z) by (apply bytes_app; split; auto; apply bytes_repeat; lia).
        assert (Lz : length z = 8%nat) by (unfold z; rewrite app_length, repeat_length; lia).
        unfold part. fold z. rewrite (lane_in f a rs) by auto. rewrite stf_blk by auto.
        replace (xorp (sk q) (y ++ [0x80])) with (xorp (sk q) z) by (unfold z; apply xorp_zeros).
        apply l_a. now apply wf40_xorp. }
      apply logs_if. replace (N.of_nat (length y) =? 0) with false by lia.
      eapply logs_eq; [apply logs_ret| |reflexivity|reflexivity]. now rewrite xorp_zeros.
  Qed.

  Lemma l_mac_32 mm k npub ad c tag K Nn A C : consts_ok cs12 mm ->
    bytes_at mm k K -> length K = 16%nat -> bytes_at mm npub Nn -> length Nn = 16%nat -> bytes_at mm ad A -> bytes_at mm c C ->
    N.of_nat (length A) < 2 ^ 64 -> N.of_nat (length C) < 2 ^ 64 -> room mm tag 16 ->
    logs (A128Probe.isap_mac_32 a u cf note k npub ad (N.of_nat (length A)) c (N.of_nat (length C)) tag) mm tt
      (putp mm tag (Spec.isap_mac (v_inst A128) K Nn A C)) (sn (mac_in I12 K Nn A C)).
  Proof.
    intros Hc [BK Hk] LK [BN Hn] LN [BA HA] [BC HC] La Lc Rt.
    destruct (cs12_ivs mm Hc) as (I1 & I2 & I3). change (v_inst A128) with I12. rewrite mac12_eq.
    set (s := mst12 Nn A C). assert (W : wf40 s) by now apply wf_mst12.
    assert (WK : wf40 (kst12 K s)) by now apply wf_kst12.
    unfold A128Probe.isap_mac_32. eapply logs_eq; [|reflexivity|reflexivity|].
    {
    eapply logs_step; [apply (r_load_word_at f a rs cf Ha Hcal mm npub 0 Nn); auto; lia|sil|].
    eapply logs_step; [apply (r_load_word_at f a rs cf Ha Hcal mm npub 8 Nn); auto; lia|sil|].
    assert (Bi : bytes (Spec.iv_A I12)) by (apply bytes_iv12; lia).
    eapply logs_step; [apply (r_load_word_at f a rs cf Ha Hcal mm RefIsap.ISAP_IV_A 0 (Spec.iv_A I12)); auto; cbn [Spec.iv_A Spec.iv length]; lia|sil|].
    rewrite stf_init by auto. change (Spec.zpad IA (Nn ++ Spec.iv_A I12)) with (Spec.zpad I12 (Nn ++ Spec.iv_A I12)).
    assert (Wz : wf40 (Spec.zpad I12 (Nn ++ Spec.iv_A I12))).
    { apply wf_zpad12; [now apply bytes_app|rewrite app_length; cbn [Spec.iv_A Spec.iv length]; lia]. }
    eapply logs_bind; [now apply l_a| |reflexivity].
    set (s1 := ascon_p 12 _). assert (W1 : wf40 s1) by now apply wf40_ascon.
    eapply logs_bind; [now apply (l_absorb_32 mm ad A s1)| |reflexivity].
    set (s2 := absA s1 _). assert (W2 : wf40 s2) by (apply wf_absA; auto; now apply chunks_Forall, bytes_pad).
    change (lane_eo 1 0) with 1. rewrite (stf_dom f a rs) by auto.
    eapply logs_bind; [apply (l_absorb_32 mm c C); auto|cbv beta|reflexivity].
    { apply wf40_xorp; auto. apply bytes_app. split; [apply bytes_repeat; lia|repeat constructor]. }
    change (absA (xorp s2 _) _) with s.
    set (Y := firstn 16 s).
    assert (LY : length Y = 16%nat) by (unfold Y; rewrite firstn_length, (proj1 W); reflexivity).
    apply (logs_with_block _ _ _ _ _ (map Some Y)).
    set (M0 := mm ++ [uninit 16]). set (yp := P (length mm) 0).
    assert (R0 : room M0 yp 16).
    { apply room_of_le. unfold yp, M0. cbn [pb po]. rewrite blk_mid, uninit_length. lia. }
    eapply logs_step; [rewrite <- (putp_nil M0 yp) at 1; apply (r_store_lane f a rs cf Ha Hcal M0 yp s 0 16); auto; lia|sil|].
    eapply logs_step; [apply (r_store_lane f a rs cf Ha Hcal M0 yp s 1 16); auto; lia|sil|].
    assert (E1 : putp M0 yp (firstn (8 * 2) s) = mm ++ [map Some Y]).
    { change (firstn (8 * 2) s) with Y. unfold M0, yp. unfold putp, put. cbn [pb po]. rewrite blk_mid, upd_mid.
      change (N.to_nat 0) with 0%nat. do 2 f_equal. apply splice_all. now rewrite map_length, uninit_length, LY. }
    rewrite E1. set (M1 := mm ++ [map Some Y]).
    assert (Hy : has M1 yp Y) by (apply has_blk0, blk_mid).
    set (R := rk12 K (Spec.iv_KA I12) Y).
    assert (WR : wf40 R) by (apply wf_rk12; auto; apply bytes_iv12; lia).
    apply (logs_with_block _ _ _ _ _ (map Some (eo_out f 2 R))).
    set (M2 := M1 ++ [uninit 16]). set (kp := P (length M1) 0).
    assert (R2 : room M2 kp 16).
    { apply room_of_le. unfold kp, M2. cbn [pb po]. rewrite blk_mid, uninit_length. lia. }
    eapply logs_bind; [|cbv beta|reflexivity].
    { apply (l_isap_rk_32 M2 k RefIsap.ISAP_IV_KA yp kp _ K (Spec.iv_KA I12) Y 2); auto.
      - now apply has_app, has_app.
      - now apply has_app, has_app.
      - now apply has_app.
      - apply bytes_iv12. lia. }
    fold R.
    assert (E2 : putp M2 kp (eo_out f 2 R) = M1 ++ [map Some (eo_out f 2 R)]).
    { unfold M2, kp. unfold putp, put. cbn [pb po]. rewrite blk_mid, upd_mid.
      change (N.to_nat 0) with 0%nat. do 2 f_equal; apply splice_all; now rewrite map_length, uninit_length, eo_out_length. }
    rewrite E2. set (M3 := M1 ++ [map Some (eo_out f 2 R)]).
    assert (Hk3 : has M3 kp (eo_out f 2 R)) by (apply has_blk0, blk_mid).
    eapply logs_step; [apply (r_load_out f cf Hlax M3 kp R 2 0); auto; lia|sil|].
    eapply logs_step; [apply (r_load_out f cf Hlax M3 kp R 2 1); auto; lia|sil|].
    rewrite firstn16_skipn16 by auto. change (firstn 16 R ++ skipn 16 s) with (kst12 K s).
    eapply logs_last; [now apply l_a| |sil].
    set (s3 := ascon_p 12 (kst12 K s)). assert (W3 : wf40 s3) by now apply wf40_ascon.
    assert (Rt1 : room M1 tag 16) by now apply room_app.
    assert (Rt3 : room M3 tag 16) by now apply room_app.
    eapply runs_bind; [rewrite <- (putp_nil M3 tag) at 1; apply (r_store_lane f a rs cf Ha Hcal M3 tag s3 0 16); auto; lia|].
    eapply runs_eq; [apply (r_store_lane f a rs cf Ha Hcal M3 tag s3 1 16); auto; lia|reflexivity|].
    change (8 * 2)%nat with 16%nat.
    unfold M3. rewrite putp_app by (rewrite firstn_length, (proj1 W3); exact Rt1). f_equal.
    unfold M1. apply putp_app. rewrite firstn_length, (proj1 W3). exact Rt. }
    rewrite <- !seen_app. f_equal. unfold mac_in, hash_in. cbv zeta. cbn [app]. rewrite <- app_assoc. reflexivity.
  Qed.

  Lemma l_enc_32 mm k npub mp c K Nn T : consts_ok cs12 mm ->
    bytes_at mm k K -> length K = 16%nat -> bytes_at mm npub Nn -> length Nn = 16%nat -> bytes_at mm mp T ->
    N.of_nat (length T) < 2 ^ 64 -> (0 < length T)%nat -> room mm c (length T) -> fwd_ok c mp (length T) ->
    logs (A128Probe.isap_enc_32 a u cf note k npub mp (N.of_nat (length T)) c) mm tt (putp mm c (Spec.isap_enc (v_inst A128) K Nn T))
      (sn (enc_in I12 K Nn (length T))).
  Proof.
    intros Hc [BK Hk] LK [BN Hn] LN [BT HT] L64 HT0 Rc Hf.
    destruct (cs12_ivs mm Hc) as (I1 & I2 & I3). change (v_inst A128) with I12.
    assert (Bi : bytes (Spec.iv_KE I12)) by (apply bytes_iv12; lia).
    set (R := rk12 K (Spec.iv_KE I12) Nn). assert (WR : wf40 R) by now apply wf_rk12.
    set (blk1 := map Some (eo_out f 3 R)).
    set (q := (length T / 8)%nat).
    set (rest := if (length T - 8 * q =? 0)%nat then [] else [(iter (ascon_p 12) q (est12 K Nn), 12%nat)]).
    assert (Elog : sn (enc_in I12 K Nn (length T)) = sn (rk_in I12 K (Spec.iv_KE I12) Nn) ++ sn (stream I12 (est12 K Nn) q) ++ sn rest).
    { rewrite <- !seen_app. unfold enc_in. replace (length T =? 0)%nat with false by lia. do 2 f_equal.
      change (Spec.i_rate I12) with 8%nat. unfold rest. destruct (Nat.eqb_spec (length T - 8 * q) 0) as [E|E].
      - rewrite app_nil_r. f_equal. unfold q in *. lia.
      - replace ((length T + 8 - 1) / 8)%nat with (S q) by (unfold q in *; lia). rewrite stream_snoc. reflexivity. }
    rewrite Elog. clear Elog.
    unfold A128Probe.isap_enc_32. apply (logs_with_block _ _ _ _ _ blk1).
    set (M0 := mm ++ [uninit 24]). set (sp := P (length mm) 0).
    assert (R0 : room M0 sp 24).
    { apply room_of_le. unfold sp, M0. cbn [pb po]. rewrite blk_mid, uninit_length. lia. }
    eapply logs_bind; [|cbv beta|reflexivity].
    { apply (l_isap_rk_32 M0 k RefIsap.ISAP_IV_KE npub sp _ K (Spec.iv_KE I12) Nn 3); auto; now apply has_app. }
    fold R.
    assert (E1 : putp M0 sp (eo_out f 3 R) = mm ++ [blk1]).
    { unfold M0, sp, putp, put. cbn [pb po]. rewrite blk_mid, upd_mid. change (N.to_nat 0) with 0%nat.
      do 2 f_equal; apply splice_all; now rewrite map_length, uninit_length, eo_out_length. }
    rewrite E1. set (M1 := mm ++ [blk1]).
    assert (Hs : has M1 sp (eo_out f 3 R)) by (apply has_blk0, blk_mid).
    assert (F1 : forall q bs, has mm q bs -> has M1 q bs) by (intros; now apply has_app).
    set (s0 := est12 K Nn). assert (W0 : wf40 s0) by now apply wf_est12.
    assert (G : forall i, (i < 3)%nat -> runs (load_eo cf (padd sp (8 * N.of_nat i))) M1 (getx (stf f s0) i) M1).
    { intros i Hi. eapply runs_eq; [apply (r_load_out f cf Hlax M1 sp R 3 i); auto; lia| |reflexivity].
      rewrite !stf_getx by (auto; lia). do 2 f_equal. unfold lane_bytes, s0, est12. fold R.
      rewrite skipn_app, firstn_app, skipn_length, firstn_length, (proj1 WR).
      replace (8 - _)%nat with 0%nat by lia. rewrite firstn_O, app_nil_r.
      rewrite skipn_firstn_comm, firstn_firstn. f_equal. lia. }
    assert (G3 : forall i, (i < 2)%nat -> runs (load_word a cf (padd npub (8 * N.of_nat i))) M1 (getx (stf f s0) (3 + i)) M1).
    { intros i Hi. replace (8 * N.of_nat i) with (N.of_nat (8 * i)) by lia. rewrite stf_getx by (auto; lia).
      eapply runs_eq; [apply (r_load_word_at f a rs cf Ha Hcal M1 npub (8 * i) Nn); auto; lia| |reflexivity].
      f_equal. f_equal. unfold lane_bytes, s0, est12. fold R. rewrite skipn_app, firstn_length, (proj1 WR).
      rewrite (skipn_all2 (firstn 24 R)) by (rewrite firstn_length, (proj1 WR); lia). cbn [app]. do 2 f_equal. lia. }
    eapply logs_step; [apply (G 0%nat); lia|sil|].
    eapply logs_step; [apply (G 1%nat); lia|sil|].
    eapply logs_step; [apply (G 2%nat); lia|sil|].
    eapply logs_step; [apply (G3 0%nat); lia|sil|].
    eapply logs_step; [apply (G3 1%nat); lia|sil|].
    change (3 + 0)%nat with 3%nat. change (3 + 1)%nat with 4%nat. rewrite stf_list by auto.
    set (pE := ascon_p 12).
    assert (Wi : forall j, wf40 (iter pE j s0)) by (intros j; apply iter_ok; auto; intros; now apply wf40_ascon).
    set (ct := Spec.isap_enc I12 K Nn T).
    assert (Lct : length ct = length T) by now apply (v_enc_length A128).
    assert (HT1 : has M1 mp T) by auto.
    assert (Rc1 : room M1 c (length T)) by now apply room_app.
    assert (Rk : forall n, (n <= length T)%nat -> room M1 c (length (firstn n ct))).
    { intros n Hnl i Hi. apply Rc1. rewrite firstn_length in Hi. lia. }
    assert (Hq : (8 * q <= length T < 8 * q + 8)%nat) by (unfold q; lia).
    eapply logs_bind; [|cbv beta|reflexivity].
    { apply (logs_while (fun j => (stf f (iter pE j s0), padd mp (N.of_nat (8 * j)), N.of_nat (length T - 8 * j), padd c (N.of_nat (8 * j))))
               (fun j => putp M1 c (firstn (8 * j) ct)) (fun j => sn (stream I12 s0 j)) q)
        with (a1 := (stf f (iter pE q s0), padd mp (N.of_nat (8 * q)), N.of_nat (length T - 8 * q), padd c (N.of_nat (8 * q))))
             (m1 := putp M1 c (firstn (8 * q) ct)).
      - unfold q. lia.
      - intros j Hj. assert (Hj8 : (8 * j + 8 <= length T)%nat) by lia.
        cbn [snd fst]. split; [lia|]. unfold A128Probe.enc_full_32.
        exists (sn [(iter pE j s0, 12%nat)]). split; [|rewrite <- seen_app, stream_snoc; reflexivity].
        eapply logs_last; [apply l_u; apply Wi| |sil]. change (ascon_p 12 (iter pE j s0)) with (iter pE (S j) s0).
        set (tb := firstn 8 (skipn (8 * j) T)).
        assert (Lb : length tb = 8%nat) by (unfold tb; rewrite firstn_length, skipn_length; lia).
        assert (Bb : bytes tb) by now apply bytes_firstn, bytes_skipn.
        eapply runs_bind.
        { apply (runs_load_ull cf _ (le_word tb)).
          - rewrite word_le_le_word by auto. apply (next_text cf 64 Hcal Hlax (N.le_refl 64) M1 mp c T ct (8 * j) 8); auto.
          - apply al4.
          - pose proof (le_word_lt tb Bb) as H. now rewrite Lb in H. }
        eapply runs_bind.
        { apply runs_store_ull.
          - apply room_putp; [apply Rk; lia|]. apply (room_sub M1 c (length T)); auto.
          - apply al4. }
        eapply runs_eq; [apply runs_ret| |].
        + rewrite !padd_padd, sub64_small by lia. repeat f_equal; lia.
        + rewrite word_le_xor, word_le_le_word by auto.
          rewrite (proj1 (lane_out f a rs (iter pE (S j) s0) 0 Ha (Wi (S j)) ltac:(lia))).
          pose proof (ct_block cf 64 Hcal (N.le_refl 64) K Nn T j LK LN BK BN Hj8) as E. cbv zeta in E. fold ct s0 tb pE in E.
          rewrite E. rewrite <- putp_app_bytes.
          * rewrite firstn_length. do 2 f_equal. lia.
          * rewrite <- E. apply Rk. lia.
      - cbn [snd fst]. lia.
      - reflexivity.
      - rewrite Nat.mul_0_r. change (N.of_nat 0) with 0. rewrite !padd_0, Nat.sub_0_r. reflexivity.
      - rewrite Nat.mul_0_r. change (firstn 0 ct) with (@nil N). apply putp_nil.
      - reflexivity.
      - reflexivity.
      - reflexivity. }
    cbv beta iota. apply logs_if. unfold rest. fold s0 pE.
    assert (Fin : forall n, (length T <= n)%nat -> putp M1 c (firstn n ct) = putp mm c ct ++ [blk1]).
    { intros n Hn'. rewrite firstn_all2 by lia. unfold M1. apply putp_app. now rewrite Lct. }
    destruct (N.ltb_spec 0 (N.of_nat (length T - 8 * q))) as [Hlt|Hge].
    - replace (length T - 8 * q =? 0)%nat with false by lia.
      eapply logs_last; [apply l_a; apply Wi| |sil]. change (ascon_p 12 (iter pE q s0)) with (iter pE (S q) s0).
      eapply runs_eq; [|reflexivity|apply (Fin (length T)); lia].
      eapply runs_bind; [|apply runs_ret].
      apply (runs_for (fun j => (padd mp (N.of_nat (8 * q + j)), padd c (N.of_nat (8 * q + j))))
               (fun j => putp M1 c (firstn (8 * q + j) ct)))
        with (a1 := (padd mp (N.of_nat (length T)), padd c (N.of_nat (length T)))).
      + rewrite Nat2N.id. intros j Hj.
        eapply runs_bind.
        { apply runs_load. rewrite <- (padd_0 (padd mp _)). change 0 with (N.of_nat 0) at 1.
          apply (next_text cf 64 Hcal Hlax (N.le_refl 64) M1 mp c T ct (8 * q + j) 1); auto; try lia. rewrite firstn_length, skipn_length. lia. }
        eapply runs_bind.
        { apply runs_store1. rewrite inside_putp by (apply Rk; lia). apply Rc1. lia. }
        eapply runs_eq; [apply runs_ret| |].
        * rewrite !padd_padd. repeat f_equal; lia.
        * rewrite Nat.add_succ_r. rewrite (firstn_snoc ct (8 * q + j) 0) by lia.
          rewrite <- putp_app_bytes.
          -- rewrite firstn_length. f_equal; [f_equal; lia|]. f_equal.
             unfold ct. rewrite enc12_nth by (auto; lia). rewrite Nat2N.id. rewrite nth_firstn_lt, nth_skipn_add by lia.
             rewrite <- nth_word_le with (n := 8%nat) by lia.
             rewrite (proj1 (lane_out f a rs (iter pE (S q) s0) 0 Ha (Wi (S q)) ltac:(lia))). unfold lane_bytes.
             rewrite nth_firstn_lt by lia. rewrite Nat.mul_0_r. cbn [skipn]. replace ((8 * q + j) / 8)%nat with q by lia.
             fold s0 pE. f_equal; f_equal; lia.
          -- rewrite <- firstn_snoc by lia. apply Rk. lia.
      + rewrite Nat.add_0_r. reflexivity.
      + now rewrite Nat.add_0_r.
      + rewrite Nat2N.id. repeat f_equal; lia.
      + rewrite Nat2N.id. f_equal. f_equal. lia.
    - replace (length T - 8 * q =? 0)%nat with true by lia.
      eapply logs_eq; [apply logs_ret|reflexivity| |reflexivity]. apply Fin. lia.
  Qed.
End Opt32Log.
