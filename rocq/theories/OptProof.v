(* isap.c of the optimised ISAP-A-128A implementations computes ISAP_RK, ISAP_MAC, ISAP_ENC and Ascon-Hash for every
   asconp.h satisfying ap_ok. Proofs only, apart from auxiliary notions. *)
From Verif Require Import Base Prog Poly SpecPerm Words AsconProof Mem Vocab Vocab2 MemProof RefLib Sponge RefProof RefAead SpecFacts.
From Verif Require Import Api ApiProof OptPerm OptRep OptPermProof OptIsap OptLanes.
From Verif Require Spec RefIsap.
Import Spec(xorp, xorz).
Open Scope N_scope.
Open Scope cm_scope.

Notation IA := Spec.ISAP_A_128A.

Lemma al8_lax cf p : strict cf = false -> al8 cf p.
Proof. intros H i. unfold aligned. now rewrite H. Qed.
Lemma al8_base cf p : (base cf (pb p) + po p) mod 8 = 0 -> al8 cf p.
Proof.
  intros H i. unfold aligned. destruct (strict cf); auto. cbn [negb orb]. apply N.eqb_eq. cbn [padd pb po].
  change (N.of_nat 8) with 8. rewrite N.add_assoc. rewrite (N.mul_comm 8), N.mod_add by lia. exact H.
Qed.
Lemma al8_at cf p n : al8 cf p -> n mod 8 = 0 -> aligned cf (padd p n) 8 = true.
Proof. intros H Hn. replace n with (8 * N.of_nat (N.to_nat (n / 8))) by lia. apply H. Qed.

Definition opt_consts : list (list N) := ref_consts RefIsap.mac_a128a ++ [ASCON_HASH_IV_bytes].

(* ---------- small facts ---------- *)

Lemma byte_at_xor u v i : byte_at (N.lxor u v) i = N.lxor (byte_at u i) (byte_at v i).
Proof.
  apply bits_inj_iff'. intros j. rewrite N.lxor_spec, !tb_byte_at, N.lxor_spec. now destruct (j <? 8).
Qed.

Lemma word_le_xor n u v : word_le n (N.lxor u v) = xorz (word_le n u) (word_le n v).
Proof.
  apply (nth_ext_le _ _ 0).
  - rewrite xorz_length; now rewrite !word_le_length.
  - intros i Hi. rewrite word_le_length in Hi. rewrite xorz_nth by now rewrite !word_le_length.
    rewrite word_le_length. replace (i <? n)%nat with true by lia. rewrite !nth_word_le by lia. apply byte_at_xor.
Qed.

Lemma land_pow2 y j : N.land y (2 ^ j) = if N.testbit y j then 2 ^ j else 0.
Proof.
  apply bits_inj_iff'. intros i. rewrite N.land_spec, N.pow2_bits_eqb.
  destruct (N.eqb_spec j i) as [->|Hn].
  - rewrite andb_true_r. destruct (N.testbit y i) eqn:E; [now rewrite N.pow2_bits_true|now rewrite N.bits_0].
  - rewrite andb_false_r. destruct (N.testbit y j); [|now rewrite N.bits_0].
    now rewrite N.pow2_bits_eqb, (proj2 (N.eqb_neq j i) Hn).
Qed.

Lemma rk_mask y j : j <= 7 -> N.shiftl (N.land y (2 ^ j)) (7 - j) = if N.testbit y j then 0x80 else 0.
Proof.
  intros H. rewrite land_pow2. destruct (N.testbit y j).
  - rewrite N.shiftl_mul_pow2, <- N.pow_add_r. now replace (j + (7 - j)) with 7 by lia.
  - apply N.shiftl_0_l.
Qed.

Lemma list5_ext (l l' : list N) : length l = 5%nat -> length l' = 5%nat ->
  nth 0 l 0 = nth 0 l' 0 -> nth 1 l 0 = nth 1 l' 0 -> nth 2 l 0 = nth 2 l' 0 -> nth 3 l 0 = nth 3 l' 0 ->
  nth 4 l 0 = nth 4 l' 0 -> l = l'.
Proof.
  intros L L' H0 H1 H2 H3 H4. apply (nth_ext_le _ _ 0); [lia|]. intros i Hi.
  destruct i as [|[|[|[|[|i]]]]]; auto; lia.
Qed.

Section OptProof.
  Variables (f : nat -> nat) (a : asconp) (rs : list nat) (cf : cfg).
  Hypothesis Ha : ap_ok f a rs.
  Hypothesis Hr12 : In 12%nat rs.
  Hypothesis Hr1 : In 1%nat rs.
  Hypothesis Hr6 : In 6%nat rs.
  Hypothesis Hcal : forall i, (i < 4)%nat -> al8 cf (P i 0).

  Lemma r_load_word m p b : has m p b -> length b = 8%nat -> bytes b -> aligned cf p 8 = true ->
    runs (load_word a cf p) m (permw f (be_word b)) m.
  Proof.
    intros H L B Al. unfold load_word. eapply runs_bind.
    - apply (runs_load_ull cf p (le_word b)); auto.
      + now rewrite word_le_le_word.
      + pose proof (le_word_lt b B) as Hl. now rewrite L in Hl.
    - eapply runs_eq; [apply runs_ret| |reflexivity]. now apply (lane_in f a rs).
  Qed.

  Lemma r_load_word_at m p n x : has m p x -> bytes x -> (n + 8 <= length x)%nat -> al8 cf p -> (n mod 8 = 0)%nat ->
    runs (load_word a cf (padd p (N.of_nat n))) m (permw f (be_word (firstn 8 (skipn n x)))) m.
  Proof.
    intros H B L Al Hn. apply r_load_word.
    - apply has_firstn. now apply has_skipn.
    - rewrite firstn_length, skipn_length. lia.
    - now apply bytes_firstn, bytes_skipn.
    - apply al8_at; auto. lia.
  Qed.

  Lemma r_perm r s (m : mem) : In r rs -> wf40 s -> runs (perm a (N.of_nat r) (stf f s)) m (stf f (ascon_p r s)) m.
  Proof.
    intros Hr W. unfold perm. eapply runs_bind; [apply runs_emit|]. eapply runs_eq; [apply runs_ret| |reflexivity].
    now apply (stf_perm f a rs).
  Qed.
  Lemma r_sH s (m : mem) : wf40 s -> runs (P_sH a (stf f s)) m (stf f (ascon_p 12 s)) m.
  Proof. intros W. now apply (r_perm 12). Qed.
  Lemma r_sB s (m : mem) : wf40 s -> runs (P_sB a (stf f s)) m (stf f (ascon_p 1 s)) m.
  Proof. intros W. now apply (r_perm 1). Qed.
  Lemma r_sE s (m : mem) : wf40 s -> runs (P_sE a (stf f s)) m (stf f (ascon_p 6 s)) m.
  Proof. intros W. now apply (r_perm 6). Qed.

  (* ---------- ABSORB_LANES ---------- *)

  Definition absA (s : list N) (bs : list (list N)) : list N := fold_left (absorb1 (ascon_p 12)) bs s.

  Lemma wf_absA bs s : Forall bytes bs -> wf40 s -> wf40 (absA s bs).
  Proof.
    intros H. apply (absorb_ok (ascon_p 12) wf40); auto.
    - intros; now apply wf40_ascon.
    - intros; now apply wf40_xorp.
  Qed.

  Lemma bytes_pad x : bytes x -> bytes (Spec.pad 8 x).
  Proof. intros H. apply bytes_app. split; auto. constructor; [lia|]. apply bytes_repeat. lia. Qed.

  Lemma r_absorb m src x s : wf40 s -> has m src x -> bytes x -> N.of_nat (length x) < 2 ^ 64 -> al8 cf src ->
    runs (ABSORB_LANES a cf (stf f s) src (N.of_nat (length x))) m (stf f (absA s (chunks 8 (Spec.pad 8 x)))) m.
  Proof.
    intros W Hx Bx Lx Al. unfold ABSORB_LANES.
    set (q := (length x / 8)%nat).
    assert (Wk : forall k, wf40 (absA s (chunks 8 (firstn (8 * k) x)))).
    { intros k. apply wf_absA; auto. apply chunks_Forall. now apply bytes_firstn. }
    set (y := skipn (8 * q) x).
    assert (Ly : length y = (length x mod 8)%nat) by (unfold y, q; rewrite skipn_length; lia).
    assert (By : bytes y) by now apply bytes_skipn.
    set (s1 := absA s (chunks 8 (firstn (8 * q) x))) in *.
    assert (W1 : wf40 s1) by apply Wk.
    assert (Fin : absA s (chunks 8 (Spec.pad 8 x)) = ascon_p 12 (xorp s1 (y ++ [0x80]))).
    { rewrite pad_chunks. fold q. fold y. unfold absA. rewrite fold_left_app. cbn [fold_left]. unfold absorb1 at 1. f_equal.
      change (fold_left _ (chunks 8 (firstn (8 * q) x)) s) with s1.
      change (0x80 :: repeat 0 (7 - length y)) with ([0x80] ++ repeat 0 (7 - length y)).
      now rewrite app_assoc, xorp_zeros. }
    rewrite Fin.
    eapply runs_bind.
    { apply (runs_while (fun k => (stf f (absA s (chunks 8 (firstn (8 * k) x))), padd src (N.of_nat (8 * k)), N.of_nat (length x - 8 * k)))
                        (fun _ => m) q) with (a1 := (stf f s1, padd src (N.of_nat (8 * q)), N.of_nat (length y))) (m1 := m).
      - unfold q. lia.
      - intros k Hk. cbn [snd]. split; [unfold q in Hk; lia|]. unfold absorb_full.
        rewrite padd_padd, N.add_0_r.
        eapply runs_bind; [apply (r_load_word_at m src (8 * k) x); auto; try (unfold q in Hk; lia)|].
        set (b := firstn 8 (skipn (8 * k) x)).
        assert (Lb : length b = 8%nat) by (unfold b; rewrite firstn_length, skipn_length; unfold q in Hk; lia).
        assert (Bb : bytes b) by now apply bytes_firstn, bytes_skipn.
        rewrite <- (blk_word_full b) by auto. rewrite stf_xor by (auto; lia).
        eapply runs_bind; [apply r_sH; now apply wf40_xorp|].
        eapply runs_eq; [apply runs_ret| |reflexivity].
        rewrite chunks_firstn_S by (unfold q in Hk; lia). fold b. unfold absA. rewrite fold_left_app. cbn [fold_left].
        unfold absorb1 at 2. rewrite padd_padd. rewrite sub64_small by (unfold q in Hk; lia).
        repeat f_equal; unfold q in Hk; lia.
      - cbn [snd]. unfold q. lia.
      - rewrite Nat.mul_0_r. change (firstn 0 x) with (@nil N). rewrite chunks_nil.
        change (N.of_nat 0) with 0. rewrite padd_0, Nat.sub_0_r. reflexivity.
      - reflexivity.
      - rewrite Ly. f_equal. unfold q. lia.
      - reflexivity. }
    cbv beta iota. apply runs_if. destruct (N.ltb_spec 0 (N.of_nat (length y))) as [Hc|Hc].
    - eapply runs_bind.
      { apply (runs_for (fun k => (blk_word (firstn k y), padd src (N.of_nat (8 * q + k)))) (fun _ => m))
          with (a1 := (blk_word y, padd src (N.of_nat (8 * q + length y)))) (m1 := m).
        - intros k Hk. rewrite Nat2N.id in Hk. eapply runs_bind.
          + apply runs_load. rewrite (Nat2N.inj_add (8 * q) k), <- padd_padd.
            apply (has_skipn m src x (8 * q) Hx). exact Hk.
          + eapply runs_eq; [apply runs_ret| |reflexivity].
            rewrite (firstn_snoc y k 0) by lia.
            rewrite <- (xor_b_snoc (firstn k y)).
            * rewrite firstn_length. rewrite padd_padd. fold y. repeat f_equal; lia.
            * now apply bytes_firstn.
            * now apply bytes_nth.
            * rewrite firstn_length. lia.
        - cbn [firstn]. rewrite Nat.add_0_r. reflexivity.
        - reflexivity.
        - rewrite Nat2N.id, firstn_all. reflexivity.
        - reflexivity. }
      cbn [fst]. cbv zeta.
      rewrite (xor_b_snoc y 0x80) by (auto; lia).
      assert (B80 : bytes (y ++ [0x80])) by (apply bytes_app; split; auto; repeat constructor).
      assert (L80 : (length (y ++ [0x80%N]) <= 8)%nat) by (rewrite app_length; cbn [length]; lia).
      rewrite (ap_tobi f a rs Ha) by now apply w64_blk.
      rewrite stf_xor by auto. apply r_sH. now apply wf40_xorp.
    - assert (E : y = []) by (destruct y; auto; cbn [length] in Hc; lia). rewrite E. cbn [app].
      rewrite (stf_top f a rs s1 true Ha W1). apply r_sH. apply wf40_xorp; auto. repeat constructor.
  Qed.

  (* ---------- isap_rk ---------- *)

  Definition rk_full (K iv Y : list N) : list N :=
    Spec.rk_absorb IA (ascon_p 12 (Spec.zpad IA (K ++ iv))) (Spec.msb_bits Y).

  Notation rk_fold := (fold_left (fun s b => ascon_p 1 (xorp s (Spec.first_bit b)))).

  Lemma wf_first_bit s b : wf40 s -> wf40 (xorp s (Spec.first_bit b)).
  Proof. intros W. apply wf40_xorp; auto. destruct b; repeat constructor. Qed.
  Lemma wf_fold Y s : wf40 s -> wf40 (rk_fold Y s).
  Proof.
    revert s; induction Y as [|b Y IH]; intros s W; cbn [fold_left]; auto. apply IH, wf40_ascon. now apply wf_first_bit.
  Qed.

  Lemma stf_init K iv : length K = 16%nat -> length iv = 8%nat ->
    [permw f (be_word (firstn 8 (skipn 0 K))); permw f (be_word (firstn 8 (skipn 8 K))); permw f (be_word (firstn 8 (skipn 0 iv))); 0; 0]
    = stf f (Spec.zpad IA (K ++ iv)).
  Proof.
    intros LK Li. unfold Spec.zpad. cbn [Spec.i_sz Spec.ISAP_A_128A]. rewrite app_length, LK, Li.
    change (40 - (16 + 8))%nat with (8 + 8)%nat. rewrite repeat_app.
    destruct (split_at 8 K) as (k1 & k2 & -> & L1); [lia|]. rewrite app_length in LK.
    rewrite <- !app_assoc. unfold stf. rewrite lanes_split by (rewrite ?repeat_length; lia).
    cbn [map]. rewrite !skipn_O, firstn_app, skipn_app, (skipn_all2 k1), (firstn_all2 k1) by lia.
    rewrite L1, Nat.sub_diag, firstn_O, skipn_O, app_nil_r. cbn [app].
    rewrite (firstn_all2 k2), (firstn_all2 iv) by lia. change (be_word (repeat 0 8)) with 0. now rewrite permw_0.
  Qed.

  Lemma wf_zpad40 x : bytes x -> (length x <= 40)%nat -> wf40 (Spec.zpad IA x).
  Proof.
    intros B L. unfold Spec.zpad. cbn [Spec.i_sz Spec.ISAP_A_128A]. split.
    - rewrite app_length, repeat_length. lia.
    - apply bytes_app. split; auto. apply bytes_repeat. lia.
  Qed.

  Lemma rk_full_eq K iv Y : length Y = 16%nat -> rk_full K iv Y =
    ascon_p 12 (xorp (rk_fold (firstn 127 (Spec.msb_bits Y)) (ascon_p 12 (Spec.zpad IA (K ++ iv))))
                     (Spec.first_bit (nth 127 (Spec.msb_bits Y) false))).
  Proof.
    intros LY. unfold rk_full. set (bits := Spec.msb_bits Y).
    assert (Hb : length bits = 128%nat) by (unfold bits; rewrite msb_bits_length; lia).
    rewrite <- (firstn_skipn 127 bits) at 1. rewrite (skipn_cons_nth bits 127 false) by lia.
    rewrite skipn_all2 by lia. rewrite rk_absorb_snoc. reflexivity.
  Qed.

  Lemma wf_rk_full K iv Y : length K = 16%nat -> length iv = 8%nat -> length Y = 16%nat -> bytes K -> bytes iv ->
    wf40 (rk_full K iv Y).
  Proof.
    intros LK Li LY BK Bi. rewrite rk_full_eq by auto. apply wf40_ascon, wf_first_bit, wf_fold, wf40_ascon, wf_zpad40.
    - now apply bytes_app.
    - rewrite app_length. lia.
  Qed.

  Lemma rk_bit_stf s y j mask sh : wf40 s -> j <= 7 -> mask = 2 ^ j -> sh = 7 - j ->
    rk_bit y mask sh (stf f s) = stf f (xorp s (Spec.first_bit (N.testbit y j))).
  Proof.
    intros W Hj -> ->. unfold rk_bit. rewrite rk_mask by auto. now apply (stf_top f a rs).
  Qed.

  (* The lanes of *out after isap_rk produced R. *)
  Definition rk_out (out R : list N) (outlen : N) : state :=
    let o := setx (setx out 0 (getx (stf f R) 0)) 1 (getx (stf f R) 1) in
    if 16 <? outlen then setx o 2 (getx (stf f R) 2) else o.

  Lemma r_isap_rk m k ivp y out outlen K iv Y :
    has m k K -> has m ivp iv -> (forall i, (i < 16)%nat -> runs (y (N.of_nat i)) m (nth i Y 0) m) ->
    length K = 16%nat -> length iv = 8%nat -> length Y = 16%nat -> bytes K -> bytes iv ->
    al8 cf k -> al8 cf ivp ->
    runs (OptIsap.isap_rk a cf k ivp y out outlen) m (rk_out out (rk_full K iv Y) outlen) m.
  Proof.
    intros Hk Hi Hy LK Li LY BK Bi Alk Ali. unfold OptIsap.isap_rk.
    eapply runs_bind; [apply (r_load_word_at m k 0 K); auto; lia|].
    eapply runs_bind; [apply (r_load_word_at m k 8 K); auto; lia|].
    eapply runs_bind; [apply (r_load_word_at m ivp 0 iv); auto; lia|].
    rewrite stf_init by auto.
    set (s0 := ascon_p 12 (Spec.zpad IA (K ++ iv))).
    assert (Wz : wf40 (Spec.zpad IA (K ++ iv))) by (apply wf_zpad40; [now apply bytes_app|rewrite app_length; lia]).
    assert (W0 : wf40 s0) by now apply wf40_ascon.
    eapply runs_bind; [now apply (r_perm 12)|]. fold s0.
    set (bits := Spec.msb_bits Y).
    assert (Hb : length bits = 128%nat) by (unfold bits; rewrite msb_bits_length; lia).
    assert (Wj : forall j, wf40 (rk_fold (firstn j bits) s0)) by (intros; now apply wf_fold).
    set (s1 := xorp (rk_fold (firstn 127 bits) s0) (Spec.first_bit (nth 127 bits false))).
    assert (W1 : wf40 s1) by now apply wf_first_bit.
    eapply runs_bind.
    { apply (runs_for (fun i => if (i =? 16)%nat then (stf f s1, 15) else (stf f (rk_fold (firstn (8 * i) bits) s0), N.of_nat i))
                      (fun _ => m)) with (a1 := (stf f s1, 15)) (m1 := m); try reflexivity.
      change (N.to_nat 16) with 16%nat. intros i Hi16.
      replace (i =? 16)%nat with false by lia.
      eapply runs_bind; [now apply Hy|].
      assert (St : forall j, (j < 8)%nat -> (8 * i + j < 127)%nat ->
        runs (P_sB a (stf f (xorp (rk_fold (firstn (8 * i + j) bits) s0) (Spec.first_bit (N.testbit (nth i Y 0) (7 - N.of_nat j)))))) m
             (stf f (rk_fold (firstn (8 * i + S j) bits) s0)) m).
      { intros j Hj Hl. eapply runs_eq; [apply r_sB; now apply wf_first_bit| |reflexivity].
        rewrite Nat.add_succ_r. rewrite (firstn_snoc bits (8 * i + j) false) by lia. rewrite fold_left_app. cbn [fold_left].
        unfold bits. rewrite nth_msb_bits by lia.
        replace ((8 * i + j) / 8)%nat with i by lia. repeat f_equal. lia. }
      rewrite <- (Nat.add_0_r (8 * i)) at 1.
      eapply runs_bind; [rewrite (rk_bit_stf _ _ 7) by (auto; lia); apply (St 0%nat); lia|].
      eapply runs_bind; [rewrite (rk_bit_stf _ _ 6) by (auto; lia); apply (St 1%nat); lia|].
      eapply runs_bind; [rewrite (rk_bit_stf _ _ 5) by (auto; lia); apply (St 2%nat); lia|].
      eapply runs_bind; [rewrite (rk_bit_stf _ _ 4) by (auto; lia); apply (St 3%nat); lia|].
      eapply runs_bind; [rewrite (rk_bit_stf _ _ 3) by (auto; lia); apply (St 4%nat); lia|].
      eapply runs_bind; [rewrite (rk_bit_stf _ _ 2) by (auto; lia); apply (St 5%nat); lia|].
      eapply runs_bind; [rewrite (rk_bit_stf _ _ 1) by (auto; lia); apply (St 6%nat); lia|].
      rewrite (rk_bit_stf _ _ 0) by (auto; lia).
      apply runs_if. destruct (N.eqb_spec (N.of_nat i) 15) as [E|E]; cbn [negb].
      - replace (S i =? 16)%nat with true by lia. replace i with 15%nat by lia.
        eapply runs_eq; [apply runs_ret| |reflexivity]. unfold s1.
        assert (Eb : nth 127 bits false = N.testbit (nth 15 Y 0) 0) by (unfold bits; rewrite nth_msb_bits by lia; reflexivity).
        rewrite Eb. reflexivity.
      - replace (S i =? 16)%nat with false by lia. eapply runs_bind.
        + apply (St 7%nat); lia.
        + eapply runs_eq; [apply runs_ret| |reflexivity]. do 3 f_equal; [f_equal; lia|lia]. }
    cbn [fst].
    eapply runs_bind; [apply (r_perm 12); auto|].
    unfold rk_out. rewrite rk_full_eq by auto. fold s0. fold bits. fold s1. cbv zeta.
    apply runs_if. destruct (16 <? outlen); apply runs_ret.
  Qed.

  (* ---------- isap_mac ---------- *)

  Lemma bytes_ivA ty : ty < 256 -> bytes (Spec.iv IA ty).
  Proof. intros H. unfold Spec.iv. repeat constructor; auto. Qed.

  Lemma wf_mac_st Nn A C : length Nn = 16%nat -> bytes Nn -> bytes A -> bytes C -> wf40 (mac_st Nn A C).
  Proof.
    intros L BN BA BC. apply wf_absA; [now apply chunks_Forall, bytes_pad|]. apply wf40_xorp.
    - apply bytes_app. split; [apply bytes_repeat; lia|repeat constructor].
    - apply wf_absA; [now apply chunks_Forall, bytes_pad|]. apply wf40_ascon, wf_zpad40.
      + apply bytes_app. split; auto. apply bytes_ivA. lia.
      + rewrite app_length. cbn [Spec.iv_A Spec.iv length]. lia.
  Qed.

  Lemma r_mac_state m npub ad c Nn A C : has m npub Nn -> has m ad A -> has m c C -> has m RefIsap.ISAP_IV_A (Spec.iv_A IA) ->
    length Nn = 16%nat -> bytes Nn -> bytes A -> bytes C -> N.of_nat (length A) < 2 ^ 64 -> N.of_nat (length C) < 2 ^ 64 ->
    al8 cf npub -> al8 cf ad -> al8 cf c ->
    runs (mac_state a cf npub ad (N.of_nat (length A)) c (N.of_nat (length C))) m (stf f (mac_st Nn A C)) m.
  Proof.
    intros Hn HA HC HI LN BN BA BC La Lc Aln Ala Alc. unfold mac_state.
    assert (Bi : bytes (Spec.iv_A IA)) by (apply bytes_ivA; lia).
    eapply runs_bind; [apply (r_load_word_at m npub 0 Nn); auto; lia|].
    eapply runs_bind; [apply (r_load_word_at m npub 8 Nn); auto; lia|].
    eapply runs_bind; [apply (r_load_word_at m RefIsap.ISAP_IV_A 0 (Spec.iv_A IA)); auto; try reflexivity; try (cbn [Spec.iv_A Spec.iv length]; lia); apply Hcal; lia|].
    rewrite stf_init by auto.
    assert (Wz : wf40 (Spec.zpad IA (Nn ++ Spec.iv_A IA))).
    { apply wf_zpad40; [now apply bytes_app|rewrite app_length; cbn [Spec.iv_A Spec.iv length]; lia]. }
    eapply runs_bind; [now apply r_sH|].
    set (s1 := ascon_p 12 _). assert (W1 : wf40 s1) by now apply wf40_ascon.
    eapply runs_bind; [now apply r_absorb|].
    set (s2 := absA s1 _). assert (W2 : wf40 s2) by (apply wf_absA; auto; now apply chunks_Forall, bytes_pad).
    rewrite (stf_dom f a rs) by auto. apply r_absorb; auto.
    apply wf40_xorp; auto. apply bytes_app. split; [apply bytes_repeat; lia|repeat constructor].
  Qed.

  Lemma firstn16_skipn16 R s : wf40 R -> wf40 s ->
    setx (setx (stf f s) 0 (getx (stf f R) 0)) 1 (getx (stf f R) 1) = stf f (firstn 16 R ++ skipn 16 s).
  Proof.
    intros WR Ws.
    destruct (wf40_split R WR) as (a1 & a2 & a3 & a4 & a5 & -> & (L1 & L2 & L3 & L4 & L5) & _).
    destruct (wf40_split s Ws) as (b1 & b2 & b3 & b4 & b5 & -> & (M1 & M2 & M3 & M4 & M5) & _).
    assert (E1 : firstn 16 (a1 ++ a2 ++ a3 ++ a4 ++ a5) = a1 ++ a2).
    { rewrite app_assoc, firstn_app, firstn_all2 by (rewrite app_length; lia).
      replace (16 - length (a1 ++ a2))%nat with 0%nat by (rewrite app_length; lia). cbn [firstn]. apply app_nil_r. }
    assert (E2 : skipn 16 (b1 ++ b2 ++ b3 ++ b4 ++ b5) = b3 ++ b4 ++ b5).
    { rewrite (app_assoc b1), skipn_app, skipn_all2 by (rewrite app_length; lia).
      replace (16 - length (b1 ++ b2))%nat with 0%nat by (rewrite app_length; lia). reflexivity. }
    rewrite E1, E2, <- app_assoc. unfold stf. rewrite !lanes_split by auto. reflexivity.
  Qed.

  Lemma mac_spec_eq K Nn A C : Spec.isap_mac IA K Nn A C =
    firstn 16 (ascon_p 12 (firstn 16 (rk_full K (Spec.iv_KA IA) (firstn 16 (mac_st Nn A C))) ++ skipn 16 (mac_st Nn A C))).
  Proof. reflexivity. Qed.

  Lemma r_mac_tag m k tag K s : has m k K -> length K = 16%nat -> bytes K -> has m RefIsap.ISAP_IV_KA (Spec.iv_KA IA) ->
    wf40 s -> room m tag 16 -> al8 cf k ->
    runs (mac_tag a cf k (stf f s) tag) m tt
      (putp m tag (firstn 16 (ascon_p 12 (firstn 16 (rk_full K (Spec.iv_KA IA) (firstn 16 s)) ++ skipn 16 s)))).
  Proof.
    intros Hk LK BK HI W Ht Alk. unfold mac_tag.
    assert (Bi : bytes (Spec.iv_KA IA)) by (apply bytes_ivA; lia).
    set (s' := setx (setx (stf f s) 0 (WORDTOU64 a (getx (stf f s) 0))) 1
                (WORDTOU64 a (getx (setx (stf f s) 0 (WORDTOU64 a (getx (stf f s) 0))) 1))).
    pose proof (stf_length f s W) as L5.
    assert (G0 : getx s' 0 = WORDTOU64 a (getx (stf f s) 0)).
    { unfold s', getx, setx. rewrite !nth_upd_nth, !upd_nth_length, L5. reflexivity. }
    assert (G1 : getx s' 1 = WORDTOU64 a (getx (stf f s) 1)).
    { unfold s', getx, setx. rewrite !nth_upd_nth, !upd_nth_length, L5. reflexivity. }
    set (R := rk_full K (Spec.iv_KA IA) (firstn 16 s)).
    assert (Ly : length (firstn 16 s) = 16%nat) by (rewrite firstn_length, (proj1 W); reflexivity).
    assert (WR : wf40 R) by now apply wf_rk_full.
    eapply runs_bind.
    { apply (r_isap_rk m k RefIsap.ISAP_IV_KA _ s' RefIsap.CRYPTO_KEYBYTES K (Spec.iv_KA IA) (firstn 16 s)); auto.
      - intros i Hi. eapply runs_eq; [apply runs_ret| |reflexivity]. rewrite !Nat2N.id.
        rewrite nth_firstn_lt by lia.
        rewrite <- nth_word_le with (n := 8%nat) by lia.
        assert (Hd : (i / 8 = 0 \/ i / 8 = 1)%nat) by lia. destruct Hd as [E|E]; rewrite E.
        + rewrite G0, (proj1 (lane_out f a rs s 0 Ha W ltac:(lia))). unfold lane_bytes.
          rewrite nth_firstn_lt by lia. cbn [Nat.mul skipn]. f_equal. lia.
        + rewrite G1, (proj1 (lane_out f a rs s 1 Ha W ltac:(lia))). unfold lane_bytes.
          rewrite nth_firstn_lt by lia. rewrite nth_skipn_add. f_equal. lia.
      - apply Hcal. lia. }
    assert (E : rk_out s' R RefIsap.CRYPTO_KEYBYTES = stf f (firstn 16 R ++ skipn 16 s)).
    { unfold rk_out, RefIsap.CRYPTO_KEYBYTES. replace (16 <? 16) with false by lia. cbv zeta.
      rewrite <- firstn16_skipn16 by auto. pose proof (stf_length f R WR) as L5'.
      unfold s', getx, setx. apply list5_ext; rewrite ?nth_upd_nth, ?upd_nth_length, ?L5; reflexivity. }
    fold R. rewrite E.
    set (s2 := firstn 16 R ++ skipn 16 s).
    assert (W2 : wf40 s2).
    { split; [unfold s2; rewrite app_length, firstn_length, skipn_length, (proj1 WR), (proj1 W); reflexivity|].
      apply bytes_app. split; [apply bytes_firstn, WR|apply bytes_skipn, W]. }
    eapply runs_bind; [now apply r_sH|].
    set (s3 := ascon_p 12 s2). assert (W3 : wf40 s3) by now apply wf40_ascon.
    unfold put_lane.
    destruct (lane_out f a rs s3 0 Ha W3 ltac:(lia)) as [E0 _]. destruct (lane_out f a rs s3 1 Ha W3 ltac:(lia)) as [E1 _].
    rewrite E0, E1, padd_0.
    eapply runs_bind; [eapply runs_bind; [apply runs_emit|apply runs_stores_]|].
    { rewrite lane_bytes_length by (auto; lia). rewrite <- (padd_0 tag). change 0 with (N.of_nat 0). apply (room_sub m tag 16); auto; lia. }
    eapply runs_bind; [apply runs_emit|].
    assert (R8 : room m tag 8) by (rewrite <- (padd_0 tag); change 0 with (N.of_nat 0); apply (room_sub m tag 16); auto; lia).
    eapply runs_eq; [apply runs_stores_|reflexivity|].
    { apply room_putp; rewrite ?lane_bytes_length by (auto; lia); auto.
      change 8 with (N.of_nat 8) at 1. apply (room_sub m tag 16); auto; lia. }
    change 8 with (N.of_nat 8) at 1. rewrite <- (lane_bytes_length s3 0) at 1 by (auto; lia).
    assert (Ej : lane_bytes s3 0 ++ lane_bytes s3 1 = firstn 16 s3).
    { unfold lane_bytes. rewrite Nat.mul_0_r, Nat.mul_1_r. cbn [skipn].
      rewrite <- (firstn_skipn 8 (firstn 16 s3)). rewrite firstn_firstn. cbn [Nat.min]. f_equal. }
    rewrite putp_app_bytes; rewrite Ej; auto.
  Qed.

  Lemma opt_ivs m : consts_ok opt_consts m ->
    has m RefIsap.ISAP_IV_A (Spec.iv_A IA) /\ has m RefIsap.ISAP_IV_KA (Spec.iv_KA IA) /\ has m RefIsap.ISAP_IV_KE (Spec.iv_KE IA) /\
    has m ASCON_HASH_IV Spec.ascon_hash_iv.
  Proof.
    intros H. repeat split; [apply (consts_has _ _ 0 H)|apply (consts_has _ _ 1 H)|apply (consts_has _ _ 2 H)|apply (consts_has _ _ 3 H)];
      cbn [opt_consts ref_consts app length]; lia.
  Qed.

  Lemma opt_mac_ok : mac_spec A128A opt_consts (al8 cf) (fun _ => True) (OptIsap.isap_mac a cf).
  Proof.
    intros mm k npub ad c tag K Nn A C Hc _ [BK Hk] LK [BN Hn] LN [BA HA] [BC HC] La Lc Rt _ _ _ _ _ Pk Pn Pa Pc.
    destruct (opt_ivs mm Hc) as (I1 & I2 & I3 & _).
    unfold OptIsap.isap_mac. eapply runs_bind; [apply (r_mac_state mm npub ad c Nn A C); auto|].
    change (v_inst A128A) with IA. rewrite mac_spec_eq. apply r_mac_tag; auto. now apply wf_mac_st.
  Qed.

  (* ---------- isap_enc ---------- *)

  Notation est K Nn := (Spec.isap_rk IA K (Spec.iv_KE IA) Nn 24 ++ Nn).

  Lemma wf_est K Nn : length K = 16%nat -> length Nn = 16%nat -> bytes K -> bytes Nn -> wf40 (est K Nn).
  Proof.
    intros LK LN BK BN. assert (W : wf40 (rk_full K (Spec.iv_KE IA) Nn)) by (apply wf_rk_full; auto; apply bytes_ivA; lia).
    change (Spec.isap_rk IA K (Spec.iv_KE IA) Nn 24) with (firstn 24 (rk_full K (Spec.iv_KE IA) Nn)). split.
    - rewrite app_length, firstn_length, (proj1 W). lia.
    - apply bytes_app. split; auto. apply bytes_firstn, W.
  Qed.

  Lemma stf_enc junk K Nn : length junk = 5%nat -> length K = 16%nat -> length Nn = 16%nat -> bytes K -> bytes Nn ->
    setx (setx (rk_out junk (rk_full K (Spec.iv_KE IA) Nn) 24) 3 (permw f (be_word (firstn 8 (skipn 0 Nn))))) 4
         (permw f (be_word (firstn 8 (skipn 8 Nn)))) = stf f (est K Nn).
  Proof.
    intros Hjunk LK LN BK BN. assert (W : wf40 (rk_full K (Spec.iv_KE IA) Nn)) by (apply wf_rk_full; auto; apply bytes_ivA; lia).
    change (Spec.isap_rk IA K (Spec.iv_KE IA) Nn 24) with (firstn 24 (rk_full K (Spec.iv_KE IA) Nn)).
    set (R := rk_full _ _ _) in *.
    destruct (wf40_split R W) as (a1 & a2 & a3 & a4 & a5 & E & (L1 & L2 & L3 & L4 & L5) & _).
    assert (E1 : firstn 24 R = a1 ++ a2 ++ a3).
    { rewrite E, !app_assoc, <- (app_assoc _ a4), firstn_app, firstn_all2 by (rewrite !app_length; lia).
      replace (24 - length ((a1 ++ a2) ++ a3))%nat with 0%nat by (rewrite !app_length; lia). cbn [firstn]. apply app_nil_r. }
    rewrite E1. destruct (split_at 8 Nn) as (n1 & n2 & -> & M1); [lia|]. rewrite app_length in LN.
    rewrite <- !app_assoc. unfold rk_out. replace (16 <? 24) with true by lia. cbv zeta.
    unfold stf. rewrite E. rewrite !lanes_split by (repeat split; lia).
    rewrite !skipn_O, firstn_app, skipn_app, (skipn_all2 n1), (firstn_all2 n1), M1 by lia. rewrite Nat.sub_diag, firstn_O, skipn_O. cbn [app].
    rewrite app_nil_r, (firstn_all2 n2) by lia.
    destruct junk as [|j0 [|j1 [|j2 [|j3 [|j4 [|j5 r]]]]]]; try discriminate. reflexivity.
  Qed.

  Lemma opt_enc_ok junk : length junk = 5%nat -> enc_spec A128A opt_consts (al8 cf) (fun _ => True) (OptIsap.isap_enc a cf junk).
  Proof.
    intros Hjunk mm k npub mp c K Nn T Hc _ [BK Hk] LK [BN Hn] LN [BT HT] LT HT0 Rc _ _ _ Hf Pk Pn Pm Pc.
    destruct (opt_ivs mm Hc) as (I1 & I2 & I3 & _).
    unfold OptIsap.isap_enc.
    assert (Bi : bytes (Spec.iv_KE IA)) by (apply bytes_ivA; lia).
    eapply runs_bind.
    { apply (r_isap_rk mm k RefIsap.ISAP_IV_KE _ junk (40 - RefIsap.CRYPTO_NPUBBYTES) K (Spec.iv_KE IA) Nn); auto.
      - intros i Hi. apply runs_load. apply Hn. lia.
      - apply Hcal. lia. }
    eapply runs_bind; [apply (r_load_word_at mm npub 0 Nn); auto; lia|].
    eapply runs_bind; [apply (r_load_word_at mm npub 8 Nn); auto; lia|].
    change (40 - RefIsap.CRYPTO_NPUBBYTES) with 24. rewrite stf_enc by auto.
    set (s0 := est K Nn). pose proof (wf_est K Nn LK LN BK BN) as W0. fold s0 in W0.
    set (pE := ascon_p 6).
    assert (Wi : forall j, wf40 (iter pE j s0)).
    { intros j. apply iter_ok; auto. intros s. apply wf40_ascon. }
    change (v_inst A128A) with IA.
    set (ct := Spec.isap_enc IA K Nn T).
    assert (Lct : length ct = length T) by now apply (v_enc_length A128A).
    assert (Nct : forall i, (i < length T)%nat -> nth i ct 0 = N.lxor (nth i T 0) (nth (i mod 8) (iter pE (S (i / 8)) s0) 0)).
    { intros i Hi. exact (v_enc_nth A128A K Nn T i LK LN BK BN Hi). }
    assert (Rk : forall n, (n <= length T)%nat -> room mm c (length (firstn n ct))).
    { intros n Hnl i Hi. apply Rc. rewrite firstn_length in Hi. lia. }
    assert (Hrd : forall n j, (n <= length T)%nat -> (n + j <= length T)%nat ->
      has (putp mm c (firstn n ct)) (padd mp (N.of_nat n)) (firstn j (skipn n T))).
    { intros n j H1 H2. apply has_putp_disj; auto.
      - apply has_firstn. now apply has_skipn.
      - intros i i' Hi Hi'. rewrite firstn_length in Hi. rewrite padd_padd, <- Nat2N.inj_add. apply Hf.
        rewrite firstn_length, skipn_length in Hi'. lia. }
    set (q := (length T / 8)%nat).
    eapply runs_bind.
    { apply (runs_while (fun j => (stf f (iter pE j s0), padd mp (N.of_nat (8 * j)), N.of_nat (length T - 8 * j), padd c (N.of_nat (8 * j))))
               (fun j => putp mm c (firstn (8 * j) ct)) q)
        with (a1 := (stf f (iter pE q s0), padd mp (N.of_nat (8 * q)), N.of_nat (length T - 8 * q), padd c (N.of_nat (8 * q))))
             (m1 := putp mm c (firstn (8 * q) ct)).
      - unfold q. lia.
      - intros j Hj. assert (Hj8 : (8 * j + 8 <= length T)%nat) by (unfold q in Hj; lia).
        cbn [snd fst]. split; [lia|]. unfold enc_full.
        eapply runs_bind; [apply r_sE; apply Wi|]. change (ascon_p 6 (iter pE j s0)) with (iter pE (S j) s0).
        set (tb := firstn 8 (skipn (8 * j) T)).
        assert (Lb : length tb = 8%nat) by (unfold tb; rewrite firstn_length, skipn_length; lia).
        assert (Bb : bytes tb) by now apply bytes_firstn, bytes_skipn.
        eapply runs_bind.
        { apply (runs_load_ull cf _ (le_word tb)).
          - rewrite word_le_le_word by auto. apply Hrd; lia.
          - apply al8_at; auto. lia.
          - pose proof (le_word_lt tb Bb) as H. now rewrite Lb in H. }
        eapply runs_bind.
        { apply runs_store_ull.
          - apply room_putp; [apply Rk; lia|]. apply (room_sub mm c (length T)); auto.
          - apply al8_at; auto. lia. }
        eapply runs_eq; [apply runs_ret| |].
        + rewrite !padd_padd, sub64_small by lia. repeat f_equal; lia.
        + rewrite word_le_xor, word_le_le_word by auto.
          rewrite (proj1 (lane_out f a rs (iter pE (S j) s0) 0 Ha (Wi (S j)) ltac:(lia))).
          assert (E : firstn (8 * S j) ct = firstn (8 * j) ct ++ xorz tb (lane_bytes (iter pE (S j) s0) 0)).
          { apply (nth_ext_le _ _ 0).
            - rewrite app_length, !firstn_length, xorz_length; rewrite ?lane_bytes_length by (auto; lia); lia.
            - intros i Hi. rewrite firstn_length in Hi. rewrite nth_firstn_lt by lia.
              destruct (Nat.ltb_spec i (8 * j)) as [Hlt|Hge].
              + rewrite app_nth1 by (rewrite firstn_length; lia). now rewrite nth_firstn_lt.
              + rewrite app_nth2 by (rewrite firstn_length; lia). rewrite firstn_length.
                rewrite xorz_nth by (rewrite lane_bytes_length by (auto; lia); lia).
                replace (Nat.min (8 * j) (length ct)) with (8 * j)%nat by lia.
                replace (i - 8 * j <? length tb)%nat with true by lia.
                rewrite Nct by lia. unfold tb, lane_bytes. rewrite !nth_firstn_lt by lia. rewrite nth_skipn_add.
                rewrite Nat.mul_0_r. cbn [skipn]. replace (i / 8)%nat with j by lia.
                f_equal; f_equal; lia. }
          rewrite E. rewrite <- putp_app_bytes.
          * rewrite firstn_length. do 2 f_equal. lia.
          * rewrite <- E. apply Rk. lia.
      - cbn [snd fst]. unfold q. lia.
      - rewrite Nat.mul_0_r. change (N.of_nat 0) with 0. rewrite !padd_0, Nat.sub_0_r. reflexivity.
      - rewrite Nat.mul_0_r. change (firstn 0 ct) with (@nil N). apply putp_nil.
      - reflexivity.
      - reflexivity. }
    cbv beta iota. apply runs_if.
    assert (Hq : (8 * q <= length T < 8 * q + 8)%nat) by (unfold q; lia).
    destruct (N.ltb_spec 0 (N.of_nat (length T - 8 * q))) as [Hlt|Hge].
    - eapply runs_bind; [apply r_sE; apply Wi|]. change (ascon_p 6 (iter pE q s0)) with (iter pE (S q) s0).
      eapply runs_bind; [|apply runs_ret].
      apply (runs_for (fun j => (padd mp (N.of_nat (8 * q + j)), padd c (N.of_nat (8 * q + j))))
               (fun j => putp mm c (firstn (8 * q + j) ct)))
        with (a1 := (padd mp (N.of_nat (length T)), padd c (N.of_nat (length T)))).
      + rewrite Nat2N.id. intros j Hj.
        eapply runs_bind.
        { apply runs_load. rewrite <- (padd_0 (padd mp _)). change 0 with (N.of_nat 0) at 1.
          apply (Hrd (8 * q + j)%nat 1%nat); try lia. rewrite firstn_length, skipn_length. lia. }
        eapply runs_bind.
        { apply runs_store1. rewrite inside_putp by (apply Rk; lia). apply Rc. lia. }
        eapply runs_eq; [apply runs_ret| |].
        * rewrite !padd_padd. repeat f_equal; lia.
        * rewrite Nat.add_succ_r. rewrite (firstn_snoc ct (8 * q + j) 0) by lia.
          rewrite <- putp_app_bytes.
          -- rewrite firstn_length. f_equal; [f_equal; lia|]. f_equal.
             rewrite Nct by lia. rewrite Nat2N.id. rewrite nth_firstn_lt, nth_skipn_add by lia.
             rewrite <- nth_word_le with (n := 8%nat) by lia.
             rewrite (proj1 (lane_out f a rs (iter pE (S q) s0) 0 Ha (Wi (S q)) ltac:(lia))). unfold lane_bytes.
             rewrite nth_firstn_lt by lia. rewrite Nat.mul_0_r. cbn [skipn]. replace ((8 * q + j) / 8)%nat with q by lia.
             f_equal; f_equal; lia.
          -- rewrite <- firstn_snoc by lia. apply Rk. lia.
      + rewrite Nat.add_0_r. reflexivity.
      + now rewrite Nat.add_0_r.
      + rewrite Nat2N.id. repeat f_equal; lia.
      + rewrite Nat2N.id. rewrite firstn_all2 by lia. reflexivity.
    - eapply runs_eq; [apply runs_ret|reflexivity|]. rewrite firstn_all2 by lia. reflexivity.
  Qed.

  (* ---------- crypto_hash ---------- *)

  Lemma firstn8 n (b r : list N) : length b = 8%nat -> firstn (8 + n) (b ++ r) = b ++ firstn n r.
  Proof. intros <-. apply firstn_app_2. Qed.

  Lemma squeeze_spec s : Spec.squeeze 4 s =
    firstn 8 s ++ firstn 8 (ascon_p 12 s) ++ firstn 8 (ascon_p 12 (ascon_p 12 s)) ++ firstn 8 (ascon_p 12 (ascon_p 12 (ascon_p 12 s))).
  Proof. reflexivity. Qed.

  Lemma opt_hash_ok m out inp X : consts_ok opt_consts m -> bytes_at m inp X -> N.of_nat (length X) < 2 ^ 64 ->
    room m out 32 -> al8 cf inp -> al8 cf out ->
    runs (OptIsap.crypto_hash a cf out inp (N.of_nat (length X))) m 0%Z (putp m out (Spec.ascon_hash X)).
  Proof.
    intros Hc [BX HX] LX Ro Ali Alo. destruct (opt_ivs m Hc) as (_ & _ & _ & I4).
    unfold OptIsap.crypto_hash.
    eapply runs_bind; [apply (r_load_word_at m ASCON_HASH_IV 0 Spec.ascon_hash_iv); auto; try (repeat constructor; fail); try (cbn; lia); apply Hcal; lia|].
    set (z := Spec.ascon_hash_iv ++ repeat 0 32).
    assert (Wz : wf40 z) by (split; [reflexivity|unfold z; apply bytes_app; split; [repeat constructor|apply bytes_repeat; lia]]).
    replace [permw f (be_word (firstn 8 (skipn 0 Spec.ascon_hash_iv))); 0; 0; 0; 0] with (stf f z).
    2:{ unfold z. change 32%nat with (8 + (8 + (8 + 8)))%nat. rewrite !repeat_app. unfold stf.
        rewrite lanes_split by (repeat split; reflexivity). change (be_word (repeat 0 8)) with 0. cbn [map]. now rewrite permw_0. }
    eapply runs_bind; [now apply r_sH|].
    eapply runs_bind; [apply r_absorb; [now apply wf40_ascon|exact HX|exact BX|exact LX|exact Ali]|].
    set (s := absA _ _).
    assert (W : wf40 s) by (apply wf_absA; [now apply chunks_Forall, bytes_pad|now apply wf40_ascon]).
    assert (Eh : Spec.ascon_hash X = Spec.squeeze 4 s) by reflexivity.
    rewrite Eh.
    set (p := ascon_p 12) in *.
    assert (Wi : forall j, wf40 (iter p j s)).
    { intros j. apply iter_ok; auto. intros t. apply wf40_ascon. }
    set (d := Spec.squeeze 4 s).
    assert (Ld : length d = 32%nat).
    { assert (Dq : d = firstn 8 (iter p 0 s) ++ firstn 8 (iter p 1 s) ++ firstn 8 (iter p 2 s) ++ firstn 8 (iter p 3 s)) by reflexivity.
      rewrite Dq, !app_length, !firstn_length.
      rewrite (proj1 (Wi 0%nat)), (proj1 (Wi 1%nat)), (proj1 (Wi 2%nat)), (proj1 (Wi 3%nat)). reflexivity. }
    assert (Dk : forall j, (j < 4)%nat -> firstn (8 * S j) d = firstn (8 * j) d ++ lane_bytes (iter p j s) 0).
    { assert (Fl : forall j, length (firstn 8 (iter p j s)) = 8%nat) by (intros; rewrite firstn_length, (proj1 (Wi j)); reflexivity).
      assert (Dq : d = firstn 8 (iter p 0 s) ++ firstn 8 (iter p 1 s) ++ firstn 8 (iter p 2 s) ++ firstn 8 (iter p 3 s)) by reflexivity.
      rewrite Dq. unfold lane_bytes. rewrite Nat.mul_0_r. cbn [skipn].
      intros j Hj. destruct j as [|[|[|[|j]]]]; try lia.
      - change (8 * 1)%nat with (8 + 0)%nat. rewrite Nat.mul_0_r, firstn8, !firstn_O by apply Fl. apply app_nil_r.
      - change (8 * 2)%nat with (8 + (8 + 0))%nat. change (8 * 1)%nat with (8 + 0)%nat.
        rewrite !firstn8, !firstn_O by apply Fl. now rewrite !app_nil_r.
      - change (8 * 3)%nat with (8 + (8 + (8 + 0)))%nat. change (8 * 2)%nat with (8 + (8 + 0))%nat.
        rewrite !firstn8, !firstn_O by apply Fl. now rewrite !app_nil_r, <- !app_assoc.
      - rewrite firstn_all2 by (rewrite !app_length, !Fl; lia). change (8 * 3)%nat with (8 + (8 + (8 + 0)))%nat.
        rewrite !firstn8, !firstn_O by apply Fl. now rewrite !app_nil_r, <- !app_assoc. }
    eapply runs_bind; [|apply runs_ret].
    apply (runs_for (fun j => if (j =? 4)%nat then stf f (iter p 3 s) else stf f (iter p j s)) (fun j => putp m out (firstn (8 * j) d)))
      with (a1 := stf f (iter p 3 s)).
    - change (N.to_nat 4) with 4%nat. intros j Hj. replace (j =? 4)%nat with false by lia.
      assert (Rj : room m out (length (firstn (8 * j) d))).
      { intros i Hi. apply Ro. rewrite firstn_length in Hi. lia. }
      replace (8 * N.of_nat j) with (N.of_nat (8 * j)) by lia.
      eapply runs_bind.
      { apply runs_store_ull.
        - apply room_putp; auto. apply (room_sub m out 32); auto. lia.
        - apply al8_at; auto. lia. }
      rewrite (proj1 (lane_out f a rs (iter p j s) 0 Ha (Wi j) ltac:(lia))).
      assert (Em : putp (putp m out (firstn (8 * j) d)) (padd out (N.of_nat (8 * j))) (lane_bytes (iter p j s) 0) = putp m out (firstn (8 * S j) d)).
      { rewrite (Dk j Hj), <- putp_app_bytes.
        - rewrite firstn_length. do 2 f_equal. lia.
        - rewrite <- (Dk j Hj). intros i Hi. apply Ro. rewrite firstn_length in Hi. lia. }
      rewrite Em. apply runs_if. destruct (N.ltb_spec (N.of_nat j) 3) as [H3|H3].
      + replace (S j =? 4)%nat with false by lia. apply r_sH. apply Wi.
      + replace (S j =? 4)%nat with true by lia. replace j with 3%nat by lia. apply runs_ret.
    - reflexivity.
    - rewrite Nat.mul_0_r. change (firstn 0 d) with (@nil N). apply putp_nil.
    - reflexivity.
    - change (N.to_nat 4) with 4%nat. rewrite firstn_all2 by lia. reflexivity.
  Qed.
End OptProof.
