(* isap.c of the optimised ISAP-A-128 implementations computes ISAP_RK, ISAP_MAC and ISAP_ENC. Proofs only, apart from auxiliary notions. *)
From Verif Require Import Base Prog Poly SpecPerm Words AsconProof Mem Vocab Vocab2 MemProof RefLib Sponge RefProof RefAead SpecFacts.
From Verif Require Import Api ApiProof OptPerm OptRep OptPermProof OptIsap OptLanes OptProof A128.
From Verif Require Spec RefIsap.
Import Spec(xorp, xorz).
Open Scope N_scope.
Open Scope cm_scope.

Notation I12 := Spec.ISAP_A_128.

(* ---------- specification side ---------- *)

Definition rk12 (K iv Y : list N) : list N :=
  Spec.rk_absorb I12 (ascon_p 12 (Spec.zpad I12 (K ++ iv))) (Spec.msb_bits Y).
Notation fold12 := (fold_left (fun s b => ascon_p 12 (xorp s (Spec.first_bit b)))).

Lemma wf_fold12 Y s : wf40 s -> wf40 (fold12 Y s).
Proof.
  revert s; induction Y as [|b Y IH]; intros s W; cbn [fold_left]; auto. apply IH, wf40_ascon. now apply wf_first_bit.
Qed.

Lemma rk12_eq K iv Y : length Y = 16%nat -> rk12 K iv Y =
  ascon_p 12 (xorp (fold12 (firstn 127 (Spec.msb_bits Y)) (ascon_p 12 (Spec.zpad I12 (K ++ iv))))
                   (Spec.first_bit (nth 127 (Spec.msb_bits Y) false))).
Proof.
  intros LY. unfold rk12. set (bits := Spec.msb_bits Y).
  assert (Hb : length bits = 128%nat) by (unfold bits; rewrite msb_bits_length; lia).
  rewrite <- (firstn_skipn 127 bits) at 1. rewrite (skipn_cons_nth bits 127 false) by lia.
  rewrite skipn_all2 by lia. rewrite rk_absorb_snoc. reflexivity.
Qed.

Lemma wf_zpad12 x : bytes x -> (length x <= 40)%nat -> wf40 (Spec.zpad I12 x).
Proof. exact (wf_zpad40 x). Qed.

Lemma wf_rk12 K iv Y : length K = 16%nat -> length iv = 8%nat -> length Y = 16%nat -> bytes K -> bytes iv -> wf40 (rk12 K iv Y).
Proof.
  intros LK Li LY BK Bi. rewrite rk12_eq by auto. apply wf40_ascon, wf_first_bit, wf_fold12, wf40_ascon, wf_zpad12.
  - now apply bytes_app.
  - rewrite app_length. lia.
Qed.

Lemma bytes_iv12 ty : ty < 256 -> bytes (Spec.iv I12 ty).
Proof. intros H. unfold Spec.iv. repeat constructor; auto. Qed.

(* The MAC state before the key is used. *)
Definition mst12 (Nn A C : list N) : list N :=
  absA (xorp (absA (ascon_p 12 (Spec.zpad I12 (Nn ++ Spec.iv_A I12))) (chunks 8 (Spec.pad 8 A))) (repeat 0 39 ++ [1])) (chunks 8 (Spec.pad 8 C)).

Lemma wf_mst12 Nn A C : length Nn = 16%nat -> bytes Nn -> bytes A -> bytes C -> wf40 (mst12 Nn A C).
Proof.
  intros L BN BA BC. apply wf_absA; [now apply chunks_Forall, bytes_pad|]. apply wf40_xorp.
  - apply bytes_app. split; [apply bytes_repeat; lia|repeat constructor].
  - apply wf_absA; [now apply chunks_Forall, bytes_pad|]. apply wf40_ascon, wf_zpad12.
    + apply bytes_app. split; auto. apply bytes_iv12. lia.
    + rewrite app_length. cbn [Spec.iv_A Spec.iv length]. lia.
Qed.

Definition kst12 (K s : list N) : list N := firstn 16 (rk12 K (Spec.iv_KA I12) (firstn 16 s)) ++ skipn 16 s.
Lemma wf_kst12 K s : length K = 16%nat -> bytes K -> wf40 s -> wf40 (kst12 K s).
Proof.
  intros LK BK W.
  assert (Ly : length (firstn 16 s) = 16%nat) by (rewrite firstn_length, (proj1 W); reflexivity).
  assert (WR : wf40 (rk12 K (Spec.iv_KA I12) (firstn 16 s))) by (apply wf_rk12; auto; apply bytes_iv12; lia).
  split; [unfold kst12; rewrite app_length, firstn_length, skipn_length, (proj1 WR), (proj1 W); reflexivity|].
  apply bytes_app. split; [apply bytes_firstn, WR|apply bytes_skipn, W].
Qed.

Lemma mac12_eq K Nn A C : Spec.isap_mac I12 K Nn A C = firstn 16 (ascon_p 12 (kst12 K (mst12 Nn A C))).
Proof. reflexivity. Qed.

(* The state from which the key stream is squeezed. *)
Definition est12 (K Nn : list N) : list N := firstn 24 (rk12 K (Spec.iv_KE I12) Nn) ++ Nn.
Lemma wf_est12 K Nn : length K = 16%nat -> length Nn = 16%nat -> bytes K -> bytes Nn -> wf40 (est12 K Nn).
Proof.
  intros LK LN BK BN. assert (W : wf40 (rk12 K (Spec.iv_KE I12) Nn)) by (apply wf_rk12; auto; apply bytes_iv12; lia). split.
  - unfold est12. rewrite app_length, firstn_length, (proj1 W). lia.
  - apply bytes_app. split; auto. apply bytes_firstn, W.
Qed.

Lemma enc12_nth K Nn T i : length K = 16%nat -> length Nn = 16%nat -> bytes K -> bytes Nn -> (i < length T)%nat ->
  nth i (Spec.isap_enc I12 K Nn T) 0 = N.lxor (nth i T 0) (nth (i mod 8) (iter (ascon_p 12) (S (i / 8)) (est12 K Nn)) 0).
Proof. intros LK LN BK BN Hi. exact (v_enc_nth A128 K Nn T i LK LN BK BN Hi). Qed.

Definition cs12 : list (list N) := ref_consts (v_macros A128).
Lemma cs12_ivs m : consts_ok cs12 m ->
  has m RefIsap.ISAP_IV_A (Spec.iv_A I12) /\ has m RefIsap.ISAP_IV_KA (Spec.iv_KA I12) /\ has m RefIsap.ISAP_IV_KE (Spec.iv_KE I12).
Proof.
  intros H. repeat split; [apply (consts_has _ _ 0 H)|apply (consts_has _ _ 1 H)|apply (consts_has _ _ 2 H)]; cbn; lia.
Qed.
Lemma cs12_ne i : (i < length cs12)%nat -> nth i cs12 [] <> [].
Proof. cbn [cs12 v_macros ref_consts length]. intros H. destruct i as [|[|[|i]]]; try discriminate. lia. Qed.

(* Splitting the padded input at the last full block or at the end. *)
Lemma absA_last s x : let q := (length x / 8)%nat in
  absA s (chunks 8 (Spec.pad 8 x)) = ascon_p 12 (xorp (absA s (chunks 8 (firstn (8 * q) x))) (skipn (8 * q) x ++ [0x80])).
Proof.
  cbv zeta. rewrite pad_chunks. set (q := (length x / 8)%nat). set (y := skipn (8 * q) x).
  unfold absA. rewrite fold_left_app. cbn [fold_left]. unfold absorb1 at 1. f_equal.
  change (0x80 :: repeat 0 (7 - length y)) with ([0x80] ++ repeat 0 (7 - length y)).
  now rewrite app_assoc, xorp_zeros.
Qed.
Lemma absA_S s x k : (8 * S k <= length x)%nat ->
  absA s (chunks 8 (firstn (8 * S k) x)) = ascon_p 12 (xorp (absA s (chunks 8 (firstn (8 * k) x))) (firstn 8 (skipn (8 * k) x))).
Proof. intros H. rewrite chunks_firstn_S by auto. unfold absA. rewrite fold_left_app. reflexivity. Qed.

(* One bit of Y at the top of lane 0. *)
Lemma top_bit v j : j <= 7 -> N.shiftl (N.land (N.shiftr v j) 1) 7 = if N.testbit v j then 0x80 else 0.
Proof.
  intros Hj. change 1 with (N.ones 1) at 1. rewrite N.land_ones. change (2 ^ 1) with 2.
  rewrite <- N.bit0_mod, N.shiftr_spec by lia. rewrite N.add_0_l. destruct (N.testbit v j); reflexivity.
Qed.

Lemma runs_assoc {A B C} (x : M A) (g : A -> M B) (h : B -> M C) m c m' :
  runs (y <- (v <- x ;; g v) ;; h y) m c m' -> runs (v <- x ;; y <- g v ;; h y) m c m'.
Proof. intros H t. destruct (H t) as [t' E]. exists t'. rewrite <- E. unfold bind. now destruct (x (St m t)). Qed.

Lemma al8_4 cf b o : al8 cf (P b 0) -> aligned cf (P b (4 * N.of_nat o)) 4 = true.
Proof.
  intros H. specialize (H 0%nat). unfold aligned in *. destruct (strict cf); auto. cbn [negb orb] in *.
  apply N.eqb_eq in H. apply N.eqb_eq. cbn [padd pb po] in *. change (N.of_nat 8) with 8 in H. change (N.of_nat 4) with 4. lia.
Qed.

(* ---------- opt_64 ---------- *)

Section Opt64Proof.
  Variables (f : nat -> nat) (a : asconp) (rs : list nat) (cf : cfg) (UL : N).
  Hypothesis Ha : ap_ok f a rs.
  Hypothesis Hr12 : In 12%nat rs.
  Hypothesis Hcal : forall i, (i < 4)%nat -> al8 cf (P i 0).

  Lemma ul_small x : x < 2 ^ UL -> ul UL x = x.
  Proof. intros H. unfold ul. now apply N.mod_small. Qed.
  Lemma subl_small x y : y <= x -> x < 2 ^ UL -> subl UL x y = x - y.
  Proof.
    intros H1 H2. unfold subl, ul. replace (x + 2 ^ UL - y) with (x - y + 1 * 2 ^ UL) by lia.
    rewrite N.mod_add by lia. apply N.mod_small. lia.
  Qed.

  Lemma r_P12 s (m : mem) : wf40 s -> runs (P12 a (stf f s)) m (stf f (ascon_p 12 s)) m.
  Proof. intros W. now apply (r_perm f a rs Ha 12). Qed.

  Lemma stf_blk s b : wf40 s -> bytes b -> length b = 8%nat ->
    setx (stf f s) 0 (N.lxor (getx (stf f s) 0) (permw f (be_word b))) = stf f (xorp s b).
  Proof. intros W B L. rewrite <- (blk_word_full b) by auto. apply stf_xor; auto. lia. Qed.

  Lemma r_absorb_mac m src x s len : wf40 s -> has m src x -> bytes x -> ul UL len = N.of_nat (length x) -> al8 cf src ->
    runs (ABSORB_MAC a UL cf (stf f s) src len) m (stf f (absA s (chunks 8 (Spec.pad 8 x)))) m.
  Proof.
    intros W Hx Bx Lx Al. unfold ABSORB_MAC. rewrite Lx.
    assert (P0 : 2 ^ UL <> 0) by (apply N.pow_nonzero; lia).
    assert (Hle : N.of_nat (length x) <= len) by (rewrite <- Lx; apply N.mod_le; auto).
    assert (Hlt : N.of_nat (length x) < 2 ^ UL) by (rewrite <- Lx; apply N.mod_lt; auto).
    set (q := ((length x - 1) / 8)%nat).
    set (sk := fun k => absA s (chunks 8 (firstn (8 * k) x))).
    assert (Wk : forall k, wf40 (sk k)).
    { intros k. apply wf_absA; auto. apply chunks_Forall. now apply bytes_firstn. }
    assert (Hld : forall k, (8 * k + 8 <= length x)%nat ->
      runs (load_word a cf (padd src (8 * N.of_nat k))) m (permw f (be_word (firstn 8 (skipn (8 * k) x)))) m).
    { intros k Hk. replace (8 * N.of_nat k) with (N.of_nat (8 * k)) by lia.
      apply (r_load_word_at f a rs cf Ha Hcal m src (8 * k) x); auto. lia. }
    assert (Bb : forall k, bytes (firstn 8 (skipn (8 * k) x))) by (intros; now apply bytes_firstn, bytes_skipn).
    assert (Lb : forall k, (8 * k + 8 <= length x)%nat -> length (firstn 8 (skipn (8 * k) x)) = 8%nat).
    { intros k Hk. rewrite firstn_length, skipn_length. lia. }
    eapply runs_bind.
    { apply (runs_while (fun k => (stf f (sk k), N.of_nat k, N.of_nat (length x - 8 * k))) (fun _ => m) q)
        with (a1 := (stf f (sk q), N.of_nat q, N.of_nat (length x - 8 * q))) (m1 := m).
      - assert ((length x / 8 <= N.to_nat (len / 8))%nat); [|unfold q; lia].
        assert (N.of_nat (length x) / 8 <= len / 8) by (apply N.div_le_mono; lia). lia.
      - intros k Hk. assert (Hk8 : (8 * k + 8 < length x)%nat) by (unfold q in Hk; lia). cbn [snd]. split; [lia|].
        unfold absorb_mac_full.
        eapply runs_bind; [apply Hld; lia|]. rewrite stf_blk by (auto; apply Lb; lia).
        eapply runs_bind; [apply r_P12; now apply wf40_xorp|].
        eapply runs_eq; [apply runs_ret| |reflexivity].
        unfold sk at 2. rewrite absA_S by lia. fold (sk k). rewrite ul_small, subl_small by lia.
        repeat f_equal; lia.
      - cbn [snd]. unfold q. lia.
      - unfold sk. rewrite Nat.mul_0_r. change (firstn 0 x) with (@nil N). rewrite chunks_nil, Nat.sub_0_r. reflexivity.
      - reflexivity.
      - reflexivity.
      - reflexivity. }
    cbv beta iota. apply runs_if. rewrite absA_last.
    destruct (N.eqb_spec (N.of_nat (length x - 8 * q)) 8) as [E|E].
    - eapply runs_bind; [apply Hld; lia|]. rewrite stf_blk by (auto; apply Lb; lia).
      eapply runs_bind; [apply r_P12; now apply wf40_xorp|].
      unfold sk. rewrite <- absA_S by lia. fold (sk (S q)).
      replace (length x / 8)%nat with (S q) by (unfold q; lia).
      rewrite skipn_all2 by lia. cbn [app]. fold (sk (S q)).
      pose proof (stf_top f a rs (sk (S q)) true Ha (Wk (S q))) as Et. unfold xor_b in Et.
      change (N.shiftl (u8 128) (8 * 7)) with 0x8000000000000000 in Et. cbn [Spec.first_bit] in Et.
      rewrite Et. apply r_P12. apply wf40_xorp; auto. repeat constructor.
    - assert (Hq : (8 * q <= length x < 8 * q + 8)%nat) by (unfold q in *; lia).
      replace (length x / 8)%nat with q by lia.
      set (y := skipn (8 * q) x).
      assert (Ly : length y = (length x - 8 * q)%nat) by (unfold y; rewrite skipn_length; lia).
      assert (By : bytes y) by now apply bytes_skipn.
      set (lane := y ++ 0x80 :: repeat 0 (7 - length y)).
      assert (Ll : length lane = 8%nat) by (unfold lane; rewrite app_length; cbn [length]; rewrite repeat_length; lia).
      assert (Bl : bytes lane).
      { unfold lane. apply bytes_app. split; auto. constructor; [lia|]. apply bytes_repeat. lia. }
      eapply runs_bind.
      { apply (runs_for (fun k => (firstn k lane, N.of_nat (8 * q + Nat.min k (length y)))) (fun _ => m))
          with (a1 := (lane, N.of_nat (8 * q + length y))) (m1 := m).
        - change (N.to_nat 8) with 8%nat. intros k Hk. rewrite (firstn_snoc lane k 0) by lia. rewrite <- Ly.
          apply runs_if. destruct (N.ltb_spec (N.of_nat k) (N.of_nat (length y))) as [Hc|Hc].
          + eapply runs_bind.
            * apply runs_load. replace (Nat.min k (length y)) with k by lia.
              rewrite (Nat2N.inj_add (8 * q) k), <- padd_padd. apply (has_skipn m src x (8 * q) Hx). fold y. lia.
            * eapply runs_eq; [apply runs_ret| |reflexivity]. fold y.
              unfold lane at 3. rewrite app_nth1 by lia. rewrite ul_small by lia. do 2 f_equal; lia.
          + apply runs_if. destruct (N.eqb_spec (N.of_nat k) (N.of_nat (length y))) as [E'|E'].
            * eapply runs_eq; [apply runs_ret| |reflexivity]. unfold lane at 3. rewrite app_nth2 by lia.
              replace (k - length y)%nat with 0%nat by lia. cbn [nth]. do 2 f_equal; lia.
            * eapply runs_eq; [apply runs_ret| |reflexivity]. unfold lane at 3. rewrite app_nth2 by lia.
              replace (k - length y)%nat with (S (k - length y - 1)) by lia. cbn [nth]. rewrite nth_repeat.
              do 2 f_equal; lia.
        - cbn [firstn Nat.min]. rewrite ul_small by lia. f_equal. lia.
        - reflexivity.
        - change (N.to_nat 8) with 8%nat. rewrite firstn_all2 by lia. do 2 f_equal. lia.
        - reflexivity. }
      cbn [fst]. rewrite (lane_in f a rs) by auto. rewrite stf_blk by auto.
      replace (xorp (sk q) lane) with (xorp (sk q) (y ++ [0x80])).
      2:{ unfold lane. change (0x80 :: repeat 0 (7 - length y)) with ([0x80] ++ repeat 0 (7 - length y)). now rewrite app_assoc, xorp_zeros. }
      apply r_P12. apply wf40_xorp; [|apply Wk]. apply bytes_app. split; auto. repeat constructor.
  Qed.

  Lemma firstn_lane s i : wf40 s -> (i < 5)%nat -> firstn (8 * S i) s = firstn (8 * i) s ++ lane_bytes s i.
  Proof.
    intros W Hi. unfold lane_bytes. rewrite <- (firstn_skipn (8 * i) (firstn (8 * S i) s)). rewrite firstn_firstn.
    replace (Nat.min (8 * i) (8 * S i)) with (8 * i)%nat by lia. f_equal.
    rewrite firstn_skipn_comm. f_equal. f_equal. lia.
  Qed.

  (* Storing lane number i behind those before it. *)
  Lemma r_store_lane m p s i n : wf40 s -> (i < 5)%nat -> room m p n -> (8 * S i <= n)%nat -> al8 cf p ->
    runs (RefIsap.store_ull cf (padd p (8 * N.of_nat i)) (WORDTOU64 a (getx (stf f s) i))) (putp m p (firstn (8 * i) s)) tt
         (putp m p (firstn (8 * S i) s)).
  Proof.
    intros W Hi R Hn Al.
    assert (R0 : forall k, (k <= n)%nat -> room m p (length (firstn k s))).
    { intros k Hk j Hj. apply R. rewrite firstn_length in Hj. lia. }
    eapply runs_eq; [apply runs_store_ull|reflexivity|].
    - apply room_putp; [apply R0; lia|]. replace (8 * N.of_nat i) with (N.of_nat (8 * i)) by lia. apply (room_sub m p n); auto. lia.
    - apply al8_at; auto. lia.
    - rewrite (proj1 (lane_out f a rs s i Ha W Hi)). rewrite (firstn_lane s i) by auto.
      rewrite <- putp_app_bytes.
      + do 2 f_equal. rewrite firstn_length, (proj1 W). lia.
      + rewrite <- firstn_lane by auto. apply R0. lia.
  Qed.

  Lemma rk_bit_64 s v j : wf40 s -> j <= 7 ->
    setx (stf f s) 0 (N.lxor (getx (stf f s) 0) (u64 (N.shiftl (u8 (N.shiftl (N.land (N.shiftr v j) 1) 7)) 56)))
    = stf f (xorp s (Spec.first_bit (N.testbit v j))).
  Proof.
    intros W Hj. rewrite top_bit by auto. rewrite <- (stf_top f a rs) by auto. unfold xor_b.
    now destruct (N.testbit v j).
  Qed.

  Lemma r_isap_rk_64 m k ivp yp out outlen K iv Y n :
    has m k K -> has m ivp iv -> has m yp Y -> length K = 16%nat -> length iv = 8%nat -> length Y = 16%nat -> bytes K -> bytes iv ->
    n = (if N.eqb outlen 24 then 24%nat else 16%nat) -> room m out n ->
    al8 cf k -> al8 cf ivp -> al8 cf out ->
    runs (isap_rk_64 a cf k ivp yp 16 out outlen) m tt (putp m out (firstn n (rk12 K iv Y))).
  Proof.
    intros Hk Hi Hy LK Li LY BK Bi En Ro Alk Ali Alo. unfold isap_rk_64.
    eapply runs_bind; [apply (r_load_word_at f a rs cf Ha Hcal m k 0 K); auto; lia|].
    eapply runs_bind; [apply (r_load_word_at f a rs cf Ha Hcal m k 8 K); auto; lia|].
    eapply runs_bind; [apply (r_load_word_at f a rs cf Ha Hcal m ivp 0 iv); auto; lia|].
    rewrite stf_init by auto. change (Spec.zpad IA (K ++ iv)) with (Spec.zpad I12 (K ++ iv)).
    assert (Wz : wf40 (Spec.zpad I12 (K ++ iv))) by (apply wf_zpad12; [now apply bytes_app|rewrite app_length; lia]).
    eapply runs_bind; [now apply r_P12|].
    set (s0 := ascon_p 12 (Spec.zpad I12 (K ++ iv))).
    assert (W0 : wf40 s0) by now apply wf40_ascon.
    set (bits := Spec.msb_bits Y).
    assert (Hb : length bits = 128%nat) by (unfold bits; rewrite msb_bits_length; lia).
    assert (Wj : forall j, wf40 (fold12 (firstn j bits) s0)) by (intros; now apply wf_fold12).
    eapply runs_bind.
    { apply (runs_for (fun i => stf f (fold12 (firstn i bits) s0)) (fun _ => m)) with (a1 := stf f (fold12 (firstn 127 bits) s0)) (m1 := m);
        try reflexivity.
      change (N.to_nat (sub64 (u64 (16 * 8)) 1)) with 127%nat. intros i Hi127.
      eapply runs_bind.
      { apply runs_load. replace (N.of_nat i / 8) with (N.of_nat (i / 8)) by lia. apply Hy. lia. }
      rewrite rk_bit_64 by (auto; lia).
      eapply runs_eq; [apply r_P12; now apply wf_first_bit| |reflexivity].
      rewrite (firstn_snoc bits i false) by lia. rewrite fold_left_app. cbn [fold_left].
      unfold bits. rewrite nth_msb_bits by lia. reflexivity. }
    eapply runs_bind.
    { apply runs_load. change (sub64 16 1) with (N.of_nat 15). apply Hy. lia. }
    eapply runs_bind.
    { pose proof (rk_bit_64 (fold12 (firstn 127 bits) s0) (nth 15 Y 0) 0 (Wj 127%nat) ltac:(lia)) as E.
      rewrite N.shiftr_0_r in E. rewrite E. apply r_P12. now apply wf_first_bit. }
    assert (Eb : nth 127 bits false = N.testbit (nth 15 Y 0) 0) by (unfold bits; rewrite nth_msb_bits by lia; reflexivity).
    rewrite <- Eb. unfold bits, s0. rewrite <- rk12_eq by auto.
    set (R := rk12 K iv Y). assert (WR : wf40 R) by now apply wf_rk12.
    eapply runs_bind.
    { eapply runs_eq; [|reflexivity|].
      - rewrite <- (putp_nil m out) at 1. apply (r_store_lane m out R 0 n); auto; try lia; rewrite En; destruct (outlen =? 24); lia.
      - reflexivity. }
    eapply runs_bind.
    { apply (r_store_lane m out R 1 n); auto; try lia; rewrite En; destruct (outlen =? 24); lia. }
    apply runs_if_skip; intros E; rewrite E in En; subst n.
    - apply (r_store_lane m out R 2 24); auto.
    - reflexivity.
  Qed.

  Hypothesis Hlax : strict cf = false.
  Let al p : al8 cf p := al8_lax cf p Hlax.

  Lemma stf_load m p s : has m p s -> wf40 s ->
    forall i, (i < 5)%nat -> runs (load_word a cf (padd p (8 * N.of_nat i))) m (getx (stf f s) i) m.
  Proof.
    intros H W i Hi. replace (8 * N.of_nat i) with (N.of_nat (8 * i)) by lia. rewrite stf_getx by auto.
    apply (r_load_word_at f a rs cf Ha Hcal m p (8 * i) s); auto; [apply W|rewrite (proj1 W); lia|lia].
  Qed.
  Lemma stf_list s : wf40 s -> [getx (stf f s) 0; getx (stf f s) 1; getx (stf f s) 2; getx (stf f s) 3; getx (stf f s) 4] = stf f s.
  Proof. intros W. pose proof (stf_length f s W) as L. destruct (stf f s) as [|b0 [|b1 [|b2 [|b3 [|b4 [|b5 r]]]]]]; try discriminate. reflexivity. Qed.

  (* Both lengths enter only modulo 2^UL. *)
  Lemma mac64_len mm k npub ad alen c clen tag K Nn A C : consts_ok cs12 mm ->
    bytes_at mm k K -> length K = 16%nat -> bytes_at mm npub Nn -> length Nn = 16%nat -> bytes_at mm ad A -> bytes_at mm c C ->
    ul UL alen = N.of_nat (length A) -> ul UL clen = N.of_nat (length C) -> room mm tag 16 ->
    runs (isap_mac_64 a UL cf k npub ad alen c clen tag) mm tt (putp mm tag (Spec.isap_mac (v_inst A128) K Nn A C)).
  Proof.
    intros Hc [BK Hk] LK [BN Hn] LN [BA HA] [BC HC] La Lc Rt.
    destruct (cs12_ivs mm Hc) as (I1 & I2 & I3). change (v_inst A128) with I12. rewrite mac12_eq.
    set (s := mst12 Nn A C). assert (W : wf40 s) by now apply wf_mst12.
    assert (WK : wf40 (kst12 K s)) by now apply wf_kst12.
    unfold isap_mac_64. apply (runs_with_block _ _ _ _ _ (map Some (kst12 K s))).
    set (M0 := mm ++ [uninit 40]). set (sp := P (length mm) 0).
    assert (F0 : forall l q bs, has mm q bs -> has (mm ++ l) q bs) by (intros; now apply has_app).
    eapply runs_bind; [apply (r_load_word_at f a rs cf Ha Hcal M0 npub 0 Nn); auto; try lia; now apply F0|].
    eapply runs_bind; [apply (r_load_word_at f a rs cf Ha Hcal M0 npub 8 Nn); auto; try lia; now apply F0|].
    assert (Bi : bytes (Spec.iv_A I12)) by (apply bytes_iv12; lia).
    eapply runs_bind; [apply (r_load_word_at f a rs cf Ha Hcal M0 RefIsap.ISAP_IV_A 0 (Spec.iv_A I12)); auto; try (cbn [Spec.iv_A Spec.iv length]; lia); now apply F0|].
    rewrite stf_init by auto. change (Spec.zpad IA (Nn ++ Spec.iv_A I12)) with (Spec.zpad I12 (Nn ++ Spec.iv_A I12)).
    assert (Wz : wf40 (Spec.zpad I12 (Nn ++ Spec.iv_A I12))).
    { apply wf_zpad12; [now apply bytes_app|rewrite app_length; cbn [Spec.iv_A Spec.iv length]; lia]. }
    eapply runs_bind; [now apply r_P12|].
    set (s1 := ascon_p 12 _). assert (W1 : wf40 s1) by now apply wf40_ascon.
    eapply runs_bind; [apply (r_absorb_mac M0 ad A s1); auto; now apply F0|].
    set (s2 := absA s1 _). assert (W2 : wf40 s2) by (apply wf_absA; auto; now apply chunks_Forall, bytes_pad).
    rewrite (stf_dom f a rs) by auto.
    eapply runs_bind; [apply (r_absorb_mac M0 c C); auto; [|now apply F0]|].
    { apply wf40_xorp; auto. apply bytes_app. split; [apply bytes_repeat; lia|repeat constructor]. }
    change (absA (xorp s2 _) _) with s.
    assert (R0 : room M0 sp 40).
    { apply room_of_le. unfold sp, M0. cbn [pb po]. rewrite blk_mid, uninit_length. lia. }
    eapply runs_bind; [rewrite <- (putp_nil M0 sp) at 1; apply (r_store_lane M0 sp s 0 40); auto; lia|].
    eapply runs_bind; [apply (r_store_lane M0 sp s 1 40); auto; lia|].
    eapply runs_bind; [apply (r_store_lane M0 sp s 2 40); auto; lia|].
    eapply runs_bind; [apply (r_store_lane M0 sp s 3 40); auto; lia|].
    eapply runs_bind; [apply (r_store_lane M0 sp s 4 40); auto; lia|].
    assert (E1 : putp M0 sp (firstn (8 * 5) s) = mm ++ [map Some s]).
    { rewrite firstn_all2 by (rewrite (proj1 W); lia). unfold M0, sp. unfold putp, put. cbn [pb po]. rewrite blk_mid, upd_mid.
      change (N.to_nat 0) with 0%nat. do 2 f_equal. apply splice_all. now rewrite map_length, uninit_length, (proj1 W). }
    rewrite E1. set (M1 := mm ++ [map Some s]).
    assert (Hs : has M1 sp s) by (apply has_blk0, blk_mid).
    eapply runs_bind.
    { apply (r_isap_rk_64 M1 k RefIsap.ISAP_IV_KA sp sp _ K (Spec.iv_KA I12) (firstn 16 s) 16); auto.
      - now apply F0.
      - now apply F0.
      - now apply has_firstn.
      - rewrite firstn_length, (proj1 W). reflexivity.
      - apply bytes_iv12. lia.
      - apply room_of_le. unfold sp, M1. cbn [pb po]. rewrite blk_mid, map_length, (proj1 W). lia. }
    assert (E2 : putp M1 sp (firstn 16 (rk12 K (Spec.iv_KA I12) (firstn 16 s))) = mm ++ [map Some (kst12 K s)]).
    { assert (WR : wf40 (rk12 K (Spec.iv_KA I12) (firstn 16 s))).
      { apply wf_rk12; auto; [rewrite firstn_length, (proj1 W); reflexivity|apply bytes_iv12; lia]. }
      unfold M1, sp, putp, put. cbn [pb po]. rewrite blk_mid, upd_mid. change (N.to_nat 0) with 0%nat.
      rewrite splice_map. do 3 f_equal. unfold splice, kst12.
      rewrite (firstn_length 16), (proj1 WR). reflexivity. }
    rewrite E2. set (M2 := mm ++ [map Some (kst12 K s)]).
    assert (Hs2 : has M2 sp (kst12 K s)) by (apply has_blk0, blk_mid).
    eapply runs_bind; [apply (stf_load M2 sp _ Hs2 WK 0); lia|].
    eapply runs_bind; [apply (stf_load M2 sp _ Hs2 WK 1); lia|].
    eapply runs_bind; [apply (stf_load M2 sp _ Hs2 WK 2); lia|].
    eapply runs_bind; [apply (stf_load M2 sp _ Hs2 WK 3); lia|].
    eapply runs_bind; [apply (stf_load M2 sp _ Hs2 WK 4); lia|].
    rewrite stf_list by auto.
    eapply runs_bind; [now apply r_P12|].
    set (s3 := ascon_p 12 (kst12 K s)). assert (W3 : wf40 s3) by now apply wf40_ascon.
    assert (Rt2 : room M2 tag 16) by now apply room_app.
    eapply runs_bind; [rewrite <- (putp_nil M2 tag) at 1; apply (r_store_lane M2 tag s3 0 16); auto; lia|].
    eapply runs_eq; [apply (r_store_lane M2 tag s3 1 16); auto; lia|reflexivity|].
    unfold M2. apply putp_app. rewrite firstn_length, (proj1 W3). exact Rt.
  Qed.
  (* The length of the associated data enters only modulo 2^UL. *)
  Lemma mac64_gen (g : N -> N) : (forall x, ul UL (g x) = ul UL x) ->
    mac_spec_l A128 cs12 (fun _ => True) no_cond (2 ^ UL) (fun k npub ad adlen => isap_mac_64 a UL cf k npub ad (g adlen)).
  Proof.
    intros Hg mm k npub ad c tag K Nn A C Hc _ Hk LK Hn LN HA HC La Lc Rt _ _ _ _ _ _ _ _ _.
    apply mac64_len; auto; rewrite ?Hg; now apply ul_small.
  Qed.
  Lemma mac64_ok : mac_spec_l A128 cs12 (fun _ => True) no_cond (2 ^ UL) (isap_mac_64 a UL cf).
  Proof. exact (mac64_gen (fun x => x) (fun x => eq_refl)). Qed.

  Hypothesis HUL : UL <= 64.

  (* Ciphertext block number j. *)
  Lemma ct_block K Nn T j : length K = 16%nat -> length Nn = 16%nat -> bytes K -> bytes Nn -> (8 * j + 8 <= length T)%nat ->
    let ct := Spec.isap_enc I12 K Nn T in
    firstn (8 * S j) ct = firstn (8 * j) ct ++ xorz (firstn 8 (skipn (8 * j) T)) (lane_bytes (iter (ascon_p 12) (S j) (est12 K Nn)) 0).
  Proof.
    intros LK LN BK BN Hj ct. set (tb := firstn 8 (skipn (8 * j) T)). set (s := iter (ascon_p 12) (S j) (est12 K Nn)).
    assert (W : wf40 s) by (apply iter_ok; [intros; now apply wf40_ascon|now apply wf_est12]).
    assert (Lct : length ct = length T) by now apply (v_enc_length A128).
    assert (Lb : length tb = 8%nat) by (unfold tb; rewrite firstn_length, skipn_length; lia).
    apply (nth_ext_le _ _ 0).
    - rewrite app_length, !firstn_length, xorz_length; rewrite ?lane_bytes_length by (auto; lia); lia.
    - intros i Hi. rewrite firstn_length in Hi. rewrite nth_firstn_lt by lia.
      destruct (Nat.ltb_spec i (8 * j)) as [Hlt|Hge].
      + rewrite app_nth1 by (rewrite firstn_length; lia). now rewrite nth_firstn_lt.
      + rewrite app_nth2 by (rewrite firstn_length; lia). rewrite firstn_length.
        rewrite xorz_nth by (rewrite lane_bytes_length by (auto; lia); lia).
        replace (Nat.min (8 * j) (length ct)) with (8 * j)%nat by lia.
        replace (i - 8 * j <? length tb)%nat with true by lia.
        unfold ct. rewrite enc12_nth by (auto; lia). unfold tb, lane_bytes. rewrite !nth_firstn_lt by lia. rewrite nth_skipn_add.
        rewrite Nat.mul_0_r. cbn [skipn]. replace (i / 8)%nat with j by lia. fold s.
        f_equal; f_equal; lia.
  Qed.

  (* Reading the next part of the text, part of the ciphertext being written already. *)
  Lemma next_text (M : mem) mp c T ct n j : has M mp T -> room M c (length T) -> fwd_ok c mp (length T) -> length ct = length T ->
    (n + j <= length T)%nat -> has (putp M c (firstn n ct)) (padd mp (N.of_nat n)) (firstn j (skipn n T)).
  Proof.
    intros HT Rc Hf Lct Hn. apply has_putp_disj.
    - intros i Hi. apply Rc. rewrite firstn_length in Hi. lia.
    - apply has_firstn. now apply has_skipn.
    - intros i i' Hi Hi'. rewrite firstn_length in Hi. rewrite padd_padd, <- Nat2N.inj_add. apply Hf.
      rewrite firstn_length, skipn_length in Hi'. lia.
  Qed.

  (* Texts whose length fits into an unsigned long, and longer ones of complete blocks. *)
  Definition enc_len (n : nat) : Prop := N.of_nat n < 2 ^ UL \/ (n mod 8 = 0)%nat /\ N.of_nat n < 2 ^ (UL + 3) /\ N.of_nat n < 2 ^ 64.
  (* One complete block of text. *)
  Lemma r_enc_lane M1 mp c K Nn T j : length K = 16%nat -> bytes K -> length Nn = 16%nat -> bytes Nn -> bytes T ->
    has M1 mp T -> room M1 c (length T) -> fwd_ok c mp (length T) -> (8 * j + 8 <= length T)%nat ->
    let ct := Spec.isap_enc I12 K Nn T in
    runs (v <- RefIsap.load_ull cf (padd mp (8 * N.of_nat j)) ;;
          RefIsap.store_ull cf (padd c (8 * N.of_nat j)) (N.lxor (WORDTOU64 a (getx (stf f (iter (ascon_p 12) (S j) (est12 K Nn))) 0)) v))
         (putp M1 c (firstn (8 * j) ct)) tt (putp M1 c (firstn (8 * S j) ct)).
  Proof.
    intros LK BK LN BN BT HT1 Rc1 Hf Hj ct. set (pE := ascon_p 12). set (s0 := est12 K Nn). assert (W0 : wf40 s0) by now apply wf_est12.
    assert (Wi : forall j, wf40 (iter pE j s0)) by (intros j'; apply iter_ok; auto; intros; now apply wf40_ascon).
    assert (Lct : length ct = length T) by now apply (v_enc_length A128).
    assert (Rk : forall n, (n <= length T)%nat -> room M1 c (length (firstn n ct))).
    { intros n Hnl i Hi. apply Rc1. rewrite firstn_length in Hi. lia. }
    replace (8 * N.of_nat j) with (N.of_nat (8 * j)) by lia.
      set (tb := firstn 8 (skipn (8 * j) T)).
      assert (Lb : length tb = 8%nat) by (unfold tb; rewrite firstn_length, skipn_length; lia).
      assert (Bb : bytes tb) by now apply bytes_firstn, bytes_skipn.
      eapply runs_bind.
      { apply (runs_load_ull cf _ (le_word tb)).
        - rewrite word_le_le_word by auto. apply (next_text M1 mp c T ct (8 * j) 8); auto.
        - apply al8_at; auto. lia.
        - pose proof (le_word_lt tb Bb) as H. now rewrite Lb in H. }
      eapply runs_eq; [apply runs_store_ull|reflexivity|].
      - apply room_putp; [apply Rk; lia|]. apply (room_sub M1 c (length T)); auto.
      - apply al8_at; auto. lia.
      - rewrite N.lxor_comm, word_le_xor, word_le_le_word by auto.
        rewrite (proj1 (lane_out f a rs (iter pE (S j) s0) 0 Ha (Wi (S j)) ltac:(lia))).
        pose proof (ct_block K Nn T j LK LN BK BN Hj) as E. cbv zeta in E. fold ct s0 tb pE in E.
        rewrite E. rewrite <- putp_app_bytes.
        + rewrite firstn_length. do 2 f_equal. lia.
        + rewrite <- E. apply Rk. lia.
  Qed.

  (* Lines after the loop. *)
  Definition enc_last_64 (m c : ptr) (st : OptIsap.state * N * N) : M unit :=
    let '(s, idx64, rem_bytes) := st in
    if_ (rem_bytes =? 8)
      (v <- RefIsap.load_ull cf (padd m (8 * idx64)) ;;
       RefIsap.store_ull cf (padd c (8 * idx64)) (N.lxor (WORDTOU64 a (getx s 0)) v))
      (let lane64 := WORDTOU64 a (getx s 0) in
       for_ 0 rem_bytes (fun i idx8 =>
         v <- load (padd m idx8) ;;
         store (padd c idx8) (N.lxor (byte_at lane64 (N.to_nat i)) v) ;;
         ret (ul UL (idx8 + 1))) (ul UL (idx64 * 8)) ;;
       ret tt).
  (* Everything before them. *)
  Lemma enc64_upto mm k npub mp c K Nn T : consts_ok cs12 mm ->
    bytes_at mm k K -> length K = 16%nat -> bytes_at mm npub Nn -> length Nn = 16%nat -> bytes_at mm mp T ->
    N.of_nat (length T) < 8 * 2 ^ UL -> N.of_nat (length T) < 2 ^ 64 -> (0 < length T)%nat -> room mm c (length T) -> fwd_ok c mp (length T) ->
    let ct := Spec.isap_enc (v_inst A128) K Nn T in let q := ((length T - 1) / 8)%nat in
    exists blk1, forall mF,
      runs (enc_last_64 mp c (stf f (iter (ascon_p 12) (S q) (est12 K Nn)), N.of_nat q, N.of_nat (length T - 8 * q)))
           (putp (mm ++ [blk1]) c (firstn (8 * q) ct)) tt (mF ++ [blk1]) ->
      runs (isap_enc_64 a UL cf k npub mp (N.of_nat (length T)) c) mm tt mF.
  Proof.
    intros Hc [BK Hk] LK [BN Hn] LN [BT HT] LT8 L64 HT0 Rc Hf ct0 q0.
    destruct (cs12_ivs mm Hc) as (I1 & I2 & I3). change (v_inst A128) with I12 in ct0.
    assert (Bi : bytes (Spec.iv_KE I12)) by (apply bytes_iv12; lia).
    set (R := rk12 K (Spec.iv_KE I12) Nn). assert (WR : wf40 R) by now apply wf_rk12.
    set (blk1 := splice (uninit 40) 0 (map Some (firstn 24 R))).
    exists blk1. intros mF HF. unfold isap_enc_64. apply (runs_with_block _ _ _ _ _ blk1).
    set (M0 := mm ++ [uninit 40]). set (sp := P (length mm) 0).
    assert (R0 : room M0 sp 24).
    { apply room_of_le. unfold sp, M0. cbn [pb po]. rewrite blk_mid, uninit_length. lia. }
    eapply runs_bind.
    { apply (r_isap_rk_64 M0 k RefIsap.ISAP_IV_KE npub sp _ K (Spec.iv_KE I12) Nn 24); auto; now apply has_app. }
    fold R.
    assert (E1 : putp M0 sp (firstn 24 R) = mm ++ [blk1]).
    { unfold M0, sp, putp, put. cbn [pb po]. rewrite blk_mid, upd_mid. reflexivity. }
    assert (Hs : has (putp M0 sp (firstn 24 R)) sp (firstn 24 R)).
    { apply has_putp_same. rewrite firstn_length, (proj1 WR). exact R0. }
    rewrite E1 in *. set (M1 := mm ++ [blk1]) in *.
    assert (F1 : forall q bs, has mm q bs -> has M1 q bs) by (intros; now apply has_app).
    set (s0 := est12 K Nn). assert (W0 : wf40 s0) by now apply wf_est12.
    assert (G : forall i, (i < 3)%nat -> runs (load_word a cf (padd sp (8 * N.of_nat i))) M1 (getx (stf f s0) i) M1).
    { intros i Hi. replace (8 * N.of_nat i) with (N.of_nat (8 * i)) by lia. rewrite stf_getx by (auto; lia).
      eapply runs_eq; [apply (r_load_word_at f a rs cf Ha Hcal M1 sp (8 * i) (firstn 24 R)); auto| |reflexivity].
      - apply bytes_firstn, WR.
      - rewrite firstn_length, (proj1 WR). lia.
      - lia.
      - f_equal. f_equal. unfold lane_bytes, s0, est12. fold R. rewrite skipn_app, firstn_app.
        rewrite skipn_length, firstn_length, (proj1 WR). replace (8 - _)%nat with 0%nat by lia. cbn [firstn]. now rewrite app_nil_r. }
    assert (G3 : forall i, (i < 2)%nat -> runs (load_word a cf (padd npub (8 * N.of_nat i))) M1 (getx (stf f s0) (3 + i)) M1).
    { intros i Hi. replace (8 * N.of_nat i) with (N.of_nat (8 * i)) by lia. rewrite stf_getx by (auto; lia).
      eapply runs_eq; [apply (r_load_word_at f a rs cf Ha Hcal M1 npub (8 * i) Nn); auto; lia| |reflexivity].
      f_equal. f_equal. unfold lane_bytes, s0, est12. fold R. rewrite skipn_app, firstn_length, (proj1 WR).
      rewrite (skipn_all2 (firstn 24 R)) by (rewrite firstn_length, (proj1 WR); lia). cbn [app]. do 2 f_equal. lia. }
    eapply runs_bind; [apply (G 0%nat); lia|].
    eapply runs_bind; [apply (G 1%nat); lia|].
    eapply runs_bind; [apply (G 2%nat); lia|].
    eapply runs_bind; [apply (G3 0%nat); lia|].
    eapply runs_bind; [apply (G3 1%nat); lia|].
    change (3 + 0)%nat with 3%nat. change (3 + 1)%nat with 4%nat. rewrite stf_list by auto.
    eapply runs_bind; [now apply r_P12|].
    set (pE := ascon_p 12).
    assert (Wi : forall j, wf40 (iter pE j s0)) by (intros j; apply iter_ok; auto; intros; now apply wf40_ascon).
    change (pE s0) with (iter pE 1 s0).
    set (ct := Spec.isap_enc I12 K Nn T).
    assert (Lct : length ct = length T) by now apply (v_enc_length A128).
    assert (HT1 : has M1 mp T) by auto.
    assert (Rc1 : room M1 c (length T)) by now apply room_app.
    assert (Rk : forall n, (n <= length T)%nat -> room M1 c (length (firstn n ct))).
    { intros n Hnl i Hi. apply Rc1. rewrite firstn_length in Hi. lia. }
    assert (Lane : forall j, (8 * j + 8 <= length T)%nat -> _) by (intros j Hj; exact (r_enc_lane M1 mp c K Nn T j LK BK LN BN BT HT1 Rc1 Hf Hj)).
    cbv zeta in Lane. fold ct pE s0 in Lane.
    set (q := ((length T - 1) / 8)%nat).
    eapply runs_bind.
    { apply (runs_while (fun j => (stf f (iter pE (S j) s0), N.of_nat j, N.of_nat (length T - 8 * j)))
               (fun j => putp M1 c (firstn (8 * j) ct)) q)
        with (a1 := (stf f (iter pE (S q) s0), N.of_nat q, N.of_nat (length T - 8 * q)))
             (m1 := putp M1 c (firstn (8 * q) ct)).
      - unfold q. lia.
      - intros j Hj. assert (Hj8 : (8 * j + 8 < length T)%nat) by (unfold q in Hj; lia).
        cbn [snd]. split; [lia|]. unfold enc_full_64.
        pose proof (Lane j ltac:(lia)) as HL. apply runs_assoc. eapply runs_bind; [exact HL|].
        eapply runs_bind; [apply r_P12; apply Wi|].
        eapply runs_eq; [apply runs_ret| |reflexivity].
        rewrite ul_small, sub64_small by lia. repeat f_equal; lia.
      - cbn [snd]. unfold q. lia.
      - rewrite Nat.sub_0_r. reflexivity.
      - rewrite Nat.mul_0_r. change (firstn 0 ct) with (@nil N). apply putp_nil.
      - reflexivity.
      - reflexivity. }
    exact HF.
  Qed.

  Lemma enc64_gen mm k npub mp c K Nn T : consts_ok cs12 mm ->
    bytes_at mm k K -> length K = 16%nat -> bytes_at mm npub Nn -> length Nn = 16%nat -> bytes_at mm mp T ->
    enc_len (length T) -> (0 < length T)%nat -> room mm c (length T) -> fwd_ok c mp (length T) ->
    runs (isap_enc_64 a UL cf k npub mp (N.of_nat (length T)) c) mm tt (putp mm c (Spec.isap_enc (v_inst A128) K Nn T)).
  Proof.
    intros Hc [BK Hk] LK [BN Hn] LN [BT HT] LT HT0 Rc Hf.
    change (v_inst A128) with I12.
    assert (L64 : N.of_nat (length T) < 2 ^ 64).
    { destruct LT as [LT|(_ & _ & LT)]; auto. apply N.lt_le_trans with (2 ^ UL); auto. apply N.pow_le_mono_r; lia. }
    assert (LT8 : N.of_nat (length T) < 8 * 2 ^ UL).
    { destruct LT as [LT|(_ & LT & _)]; [lia|]. rewrite N.pow_add_r in LT. change (2 ^ 3) with 8 in LT. lia. }
    destruct (enc64_upto mm k npub mp c K Nn T) as (blk1 & U); auto; try (split; auto).
    apply U. clear U. change (v_inst A128) with I12. set (ct := Spec.isap_enc I12 K Nn T). set (q := ((length T - 1) / 8)%nat).
    set (M1 := mm ++ [blk1]). set (s0 := est12 K Nn). set (pE := ascon_p 12). assert (W0 : wf40 s0) by now apply wf_est12.
    assert (Wi : forall j, wf40 (iter pE j s0)) by (intros j; apply iter_ok; auto; intros; now apply wf40_ascon).
    assert (Lct : length ct = length T) by now apply (v_enc_length A128).
    assert (HT1 : has M1 mp T) by now apply has_app.
    assert (Rc1 : room M1 c (length T)) by now apply room_app.
    assert (Rk : forall n, (n <= length T)%nat -> room M1 c (length (firstn n ct))).
    { intros n Hnl i Hi. apply Rc1. rewrite firstn_length in Hi. lia. }
    unfold enc_last_64.
    apply runs_if.
    assert (Fin : forall n, (length T <= n)%nat -> putp M1 c (firstn n ct) = putp mm c ct ++ [blk1]).
    { intros n Hn'. rewrite firstn_all2 by lia. unfold M1. apply putp_app. now rewrite Lct. }
    destruct (N.eqb_spec (N.of_nat (length T - 8 * q)) 8) as [E|E].
    - eapply runs_eq; [apply (r_enc_lane M1 mp c K Nn T q); auto; lia|reflexivity|]. apply Fin. lia.
    - assert (Hq : (8 * q <= length T < 8 * q + 8)%nat) by (unfold q in *; lia).
      assert (LU : N.of_nat (length T) < 2 ^ UL) by (destruct LT as [LT|(LT & _)]; [exact LT|unfold q in *; lia]).
      eapply runs_eq; [|reflexivity|apply (Fin (length T)); lia].
      eapply runs_bind; [|apply runs_ret].
      apply (runs_for (fun j => N.of_nat (8 * q + j)) (fun j => putp M1 c (firstn (8 * q + j) ct)))
        with (a1 := N.of_nat (length T)).
      + rewrite Nat2N.id. intros j Hj.
        eapply runs_bind.
        { apply runs_load. rewrite <- (padd_0 (padd mp _)). change 0 with (N.of_nat 0) at 1.
          apply (next_text M1 mp c T ct (8 * q + j) 1); auto; try lia. rewrite firstn_length, skipn_length. lia. }
        eapply runs_bind.
        { apply runs_store1. rewrite inside_putp by (apply Rk; lia). apply Rc1. lia. }
        eapply runs_eq; [apply runs_ret| |].
        * rewrite ul_small by lia. lia.
        * rewrite Nat.add_succ_r. rewrite (firstn_snoc ct (8 * q + j) 0) by lia.
          rewrite <- putp_app_bytes.
          -- rewrite firstn_length. f_equal; [f_equal; lia|]. f_equal.
             unfold ct. rewrite enc12_nth by (auto; lia). rewrite N.lxor_comm, Nat2N.id. rewrite nth_firstn_lt, nth_skipn_add by lia.
             rewrite <- nth_word_le with (n := 8%nat) by lia.
             rewrite (proj1 (lane_out f a rs (iter pE (S q) s0) 0 Ha (Wi (S q)) ltac:(lia))). unfold lane_bytes.
             rewrite nth_firstn_lt by lia. rewrite Nat.mul_0_r. cbn [skipn]. replace ((8 * q + j) / 8)%nat with q by lia.
             fold s0 pE. f_equal; f_equal; lia.
          -- rewrite <- firstn_snoc by lia. apply Rk. lia.
      + rewrite Nat.add_0_r, ul_small by lia. lia.
      + now rewrite Nat.add_0_r.
      + rewrite Nat2N.id. lia.
      + rewrite Nat2N.id. f_equal. f_equal. lia.
  Qed.
  Lemma enc64_ok : enc_spec_l A128 cs12 (fun _ => True) no_cond (2 ^ UL) (isap_enc_64 a UL cf).
  Proof.
    intros mm k npub mp c K Nn T Hc _ Hk LK Hn LN HT LT HT0 Rc _ _ _ Hf _ _ _ _.
    apply enc64_gen; auto. now left.
  Qed.
End Opt64Proof.

(* ---------- opt_32, opt_32_armv67m ---------- *)

Definition eo_bytes (x : N) : list N := word_le 4 (lane_o x) ++ word_le 4 (lane_e x).
Lemma eo_length x : length (eo_bytes x) = 8%nat.
Proof. unfold eo_bytes. now rewrite app_length, !word_le_length. Qed.
Lemma lane_eo_inv x : lane_eo (lane_e x) (lane_o x) = x.
Proof.
  unfold lane_eo, lane_e, lane_o. apply bits_inj_iff'. intros i. rewrite N.lor_spec.
  destruct (N.ltb_spec i 32) as [H|H].
  - rewrite N.mod_pow2_bits_low by auto. rewrite N.shiftl_spec_low by auto. apply orb_false_r.
  - rewrite N.mod_pow2_bits_high by auto. rewrite N.shiftl_spec_high' by auto. rewrite N.shiftr_spec by lia.
    cbn [orb]. f_equal. lia.
Qed.
Lemma lane_o_lt x : w64 x -> lane_o x < 2 ^ 32.
Proof. intros H. unfold lane_o. rewrite N.shiftr_div_pow2. apply N.div_lt_upper_bound; [lia|]. exact H. Qed.
Lemma lane_e_lt x : lane_e x < 2 ^ 32.
Proof. apply N.mod_lt. lia. Qed.

Section Opt32Proof.
  Variables (f : nat -> nat) (a u : asconp) (rs ru : list nat) (cf : cfg).
  Hypothesis Ha : ap_ok f a rs.
  Hypothesis Hu : ap_ok f u ru.
  Hypothesis Hr12 : In 12%nat rs.
  Hypothesis Hu12 : In 12%nat ru.
  Hypothesis Hlax : strict cf = false.
  Let al p : al8 cf p := al8_lax cf p Hlax.
  Let Hcal : forall i, (i < 4)%nat -> al8 cf (P i 0) := fun i _ => al (P i 0).
  Let al4 p n : aligned cf p n = true.
  Proof. unfold aligned. now rewrite Hlax. Qed.

  Lemma r_a s (m : mem) : wf40 s -> runs (perm a 12 (stf f s)) m (stf f (ascon_p 12 s)) m.
  Proof. intros W. now apply (r_perm f a rs Ha 12). Qed.
  Lemma r_u s (m : mem) : wf40 s -> runs (perm u 12 (stf f s)) m (stf f (ascon_p 12 s)) m.
  Proof. intros W. now apply (r_perm f u ru Hu 12). Qed.

  Lemma r_store_eo m p x : room m p 8 -> runs (store_eo cf p x) m tt (putp m p (eo_bytes x)).
  Proof.
    intros R. unfold store_eo, store32.
    assert (R4 : room m p 4) by (rewrite <- (padd_0 p); change 0 with (N.of_nat 0); apply (room_sub m p 8); auto; lia).
    eapply runs_bind; [rewrite padd_0; apply runs_storen; [now rewrite word_le_length|apply al4]|].
    eapply runs_eq; [apply runs_storen|reflexivity|].
    - rewrite word_le_length. apply room_putp; [now rewrite word_le_length|]. change 4 with (N.of_nat 4) at 1. apply (room_sub m p 8); auto.
    - apply al4.
    - unfold eo_bytes. rewrite <- putp_app_bytes by (rewrite app_length, !word_le_length; exact R). now rewrite word_le_length.
  Qed.
  Lemma r_load32 m p x : has m p (word_le 4 x) -> x < 2 ^ 32 -> runs (load32 cf p) m x m.
  Proof.
    intros H Hx. unfold load32. eapply runs_bind.
    - pose proof (runs_loadn cf (word_le 4 x) p m H (al4 _ _)) as R. rewrite word_le_length in R. exact R.
    - eapply runs_eq; [apply runs_ret| |reflexivity]. now apply le_word_word_le.
  Qed.
  Lemma r_load_eo m p x : w64 x -> has m p (eo_bytes x) -> runs (load_eo cf p) m x m.
  Proof.
    intros Hx H. unfold load_eo. pose proof (word_le_length 4 (lane_o x)) as L.
    eapply runs_bind.
    { apply (r_load32 m _ (lane_o x)); [|now apply lane_o_lt]. rewrite padd_0.
      pose proof (has_firstn m p _ 4 H) as H4. unfold eo_bytes in H4. rewrite firstn_app, firstn_all2, L, Nat.sub_diag, app_nil_r in H4 by lia. exact H4. }
    eapply runs_bind.
    { apply (r_load32 m _ (lane_e x)); [|apply lane_e_lt].
      pose proof (has_skipn m p _ 4 H) as H4. unfold eo_bytes in H4. rewrite skipn_app, skipn_all2, L, Nat.sub_diag in H4 by lia. exact H4. }
    eapply runs_eq; [apply runs_ret| |reflexivity]. apply lane_eo_inv.
  Qed.

  Lemma rk_bit_32 s v j : wf40 s -> j <= 7 ->
    setx (stf f s) 0 (N.lxor (getx (stf f s) 0) (lane_eo 0 (Mem.u32 (N.shiftl (N.shiftl (N.land (N.shiftr v j) 1) 7) 24))))
    = stf f (xorp s (Spec.first_bit (N.testbit v j))).
  Proof.
    intros W Hj. rewrite top_bit by auto. rewrite <- (stf_top f a rs) by auto. unfold xor_b.
    now destruct (N.testbit v j).
  Qed.

  (* The derived key as it is stored: lanes 0, 1 and possibly 2. *)
  Definition eo_out (n : nat) (R : list N) : list N := concat (map (fun i => eo_bytes (getx (stf f R) i)) (seq 0 n)).
  Lemma eo_out_S n R : eo_out (S n) R = eo_out n R ++ eo_bytes (getx (stf f R) n).
  Proof. unfold eo_out. rewrite seq_S, map_app, concat_app. cbn [map concat]. now rewrite app_nil_r. Qed.
  Lemma eo_out_length n R : length (eo_out n R) = (8 * n)%nat.
  Proof. induction n as [|n IH]; [reflexivity|]. rewrite eo_out_S, app_length, eo_length, IH. lia. Qed.
  Lemma eo_out_nth n R i : (i < n)%nat -> firstn 8 (skipn (8 * i) (eo_out n R)) = eo_bytes (getx (stf f R) i).
  Proof.
    revert i. induction n as [|n IH]; intros i Hi; [lia|]. rewrite eo_out_S.
    destruct (Nat.eq_dec i n) as [->|Hn].
    - rewrite skipn_app, skipn_all2 by (rewrite eo_out_length; lia). rewrite eo_out_length, Nat.sub_diag. cbn [skipn app].
      apply firstn_all2. rewrite eo_length. lia.
    - rewrite skipn_app, firstn_app. rewrite skipn_length, eo_out_length. replace (8 - _)%nat with 0%nat by lia.
      rewrite firstn_O, app_nil_r. apply IH. lia.
  Qed.

  Lemma r_store_out m p R n i : room m p (8 * n) -> (i < n)%nat ->
    runs (store_eo cf (padd p (8 * N.of_nat i)) (getx (stf f R) i)) (putp m p (eo_out i R)) tt (putp m p (eo_out (S i) R)).
  Proof.
    intros Rm Hi.
    assert (R0 : forall k, (k <= n)%nat -> room m p (length (eo_out k R))).
    { intros k Hk j Hj. apply Rm. rewrite eo_out_length in Hj. lia. }
    eapply runs_eq; [apply r_store_eo|reflexivity|].
    - apply room_putp; [apply R0; lia|]. replace (8 * N.of_nat i) with (N.of_nat (8 * i)) by lia. apply (room_sub m p (8 * n)); auto. lia.
    - rewrite eo_out_S, <- putp_app_bytes.
      + rewrite eo_out_length. do 2 f_equal. lia.
      + rewrite <- eo_out_S. apply R0. lia.
  Qed.
  Lemma r_load_out m p R n i : has m p (eo_out n R) -> wf40 R -> (i < n)%nat -> (i < 5)%nat ->
    runs (load_eo cf (padd p (8 * N.of_nat i))) m (getx (stf f R) i) m.
  Proof.
    intros H W Hi H5. apply r_load_eo.
    - rewrite stf_getx by auto. apply permw_w64.
    - rewrite <- (eo_out_nth n) by auto. replace (8 * N.of_nat i) with (N.of_nat (8 * i)) by lia. apply has_firstn. now apply has_skipn.
  Qed.

  Lemma r_isap_rk_32 m k ivp yp out outlen K iv Y n :
    has m k K -> has m ivp iv -> has m yp Y -> length K = 16%nat -> length iv = 8%nat -> length Y = 16%nat -> bytes K -> bytes iv ->
    n = (if N.ltb 16 outlen then 3%nat else 2%nat) -> room m out (8 * n) ->
    runs (isap_rk_32 a u cf k ivp yp out outlen) m tt (putp m out (eo_out n (rk12 K iv Y))).
  Proof.
    intros Hk Hi Hy LK Li LY BK Bi En Ro. unfold isap_rk_32.
    eapply runs_bind; [apply (r_load_word_at f a rs cf Ha Hcal m k 0 K); auto; lia|].
    eapply runs_bind; [apply (r_load_word_at f a rs cf Ha Hcal m k 8 K); auto; lia|].
    eapply runs_bind; [apply (r_load_word_at f a rs cf Ha Hcal m ivp 0 iv); auto; lia|].
    rewrite stf_init by auto. change (Spec.zpad IA (K ++ iv)) with (Spec.zpad I12 (K ++ iv)).
    assert (Wz : wf40 (Spec.zpad I12 (K ++ iv))) by (apply wf_zpad12; [now apply bytes_app|rewrite app_length; lia]).
    eapply runs_bind; [now apply r_a|].
    set (s0 := ascon_p 12 (Spec.zpad I12 (K ++ iv))).
    assert (W0 : wf40 s0) by now apply wf40_ascon.
    set (bits := Spec.msb_bits Y).
    assert (Hb : length bits = 128%nat) by (unfold bits; rewrite msb_bits_length; lia).
    assert (Wj : forall j, wf40 (fold12 (firstn j bits) s0)) by (intros; now apply wf_fold12).
    eapply runs_bind.
    { apply (runs_for (fun i => stf f (fold12 (firstn i bits) s0)) (fun _ => m)) with (a1 := stf f (fold12 (firstn 127 bits) s0)) (m1 := m);
        try reflexivity.
      change (N.to_nat 127) with 127%nat. intros i Hi127.
      eapply runs_bind.
      { apply runs_load. replace (N.of_nat i / 8) with (N.of_nat (i / 8)) by lia. apply Hy. lia. }
      cbv zeta. rewrite rk_bit_32 by (auto; lia).
      eapply runs_eq; [apply r_u; now apply wf_first_bit| |reflexivity].
      rewrite (firstn_snoc bits i false) by lia. rewrite fold_left_app. cbn [fold_left].
      unfold bits. rewrite nth_msb_bits by lia. reflexivity. }
    eapply runs_bind.
    { apply runs_load. change 15 with (N.of_nat 15). apply Hy. lia. }
    eapply runs_bind.
    { pose proof (rk_bit_32 (fold12 (firstn 127 bits) s0) (nth 15 Y 0) 0 (Wj 127%nat) ltac:(lia)) as E.
      rewrite N.shiftr_0_r in E.
      assert (E8 : Mem.u8 (N.shiftl (N.land (nth 15 Y 0) 1) 7) = N.shiftl (N.land (nth 15 Y 0) 1) 7).
      { pose proof (top_bit (nth 15 Y 0) 0 ltac:(lia)) as Et. rewrite N.shiftr_0_r in Et. rewrite Et. now destruct (N.testbit _ 0). }
      rewrite E8, E. apply r_a. now apply wf_first_bit. }
    assert (Eb : nth 127 bits false = N.testbit (nth 15 Y 0) 0) by (unfold bits; rewrite nth_msb_bits by lia; reflexivity).
    rewrite <- Eb. unfold bits, s0. rewrite <- rk12_eq by auto.
    set (R := rk12 K iv Y). assert (WR : wf40 R) by now apply wf_rk12.
    eapply runs_bind.
    { eapply runs_eq; [|reflexivity|reflexivity]. rewrite <- (putp_nil m out) at 1. apply (r_store_out m out R n 0); auto.
      rewrite En. destruct (16 <? outlen); lia. }
    eapply runs_bind.
    { apply (r_store_out m out R n 1); auto. rewrite En. destruct (16 <? outlen); lia. }
    apply runs_if_skip; intros E; rewrite E in En; subst n.
    - apply (r_store_out m out R 3 2); auto.
    - reflexivity.
  Qed.

  (* A lane being filled from its first byte. *)
  Definition part (y : list N) : N := le_word (y ++ repeat 0 (8 - length y)).
  Lemma upd_nth_len (y r : list N) x v : upd_nth (y ++ x :: r) (length y) v = y ++ v :: r.
  Proof. induction y as [|z y IH]; [reflexivity|]. cbn [app length upd_nth]. now rewrite IH. Qed.
  Lemma part_snoc y v : bytes y -> (length y < 8)%nat -> set_byte (part y) (N.of_nat (length y)) v = part (y ++ [v]).
  Proof.
    intros B L. unfold set_byte, part. rewrite Nat2N.id. f_equal.
    rewrite word_le_le_word.
    - replace (8 - length y)%nat with (S (7 - length y)) by lia. cbn [repeat]. rewrite upd_nth_len, <- app_assoc. cbn [app].
      rewrite app_length. cbn [length]. do 3 f_equal. lia.
    - apply bytes_app. split; auto. apply bytes_repeat. lia.
    - rewrite app_length, repeat_length. lia.
  Qed.

  Lemma r_absorb_32 m src x s : wf40 s -> has m src x -> bytes x -> N.of_nat (length x) < 2 ^ 64 ->
    runs (absorb_32 a u cf (stf f s) src (N.of_nat (length x))) m (stf f (absA s (chunks 8 (Spec.pad 8 x)))) m.
  Proof.
    intros W Hx Bx Lx. unfold absorb_32.
    set (q := (length x / 8)%nat).
    set (sk := fun k => absA s (chunks 8 (firstn (8 * k) x))).
    assert (Wk : forall k, wf40 (sk k)).
    { intros k. apply wf_absA; auto. apply chunks_Forall. now apply bytes_firstn. }
    set (y := skipn (8 * q) x).
    assert (Ly : length y = (length x mod 8)%nat) by (unfold y, q; rewrite skipn_length; lia).
    assert (By : bytes y) by now apply bytes_skipn.
    rewrite absA_last. fold q y. fold (sk q).
    eapply runs_bind.
    { apply (runs_while (fun k => (stf f (sk k), padd src (N.of_nat (8 * k)), N.of_nat (length x - 8 * k)))
                        (fun _ => m) q) with (a1 := (stf f (sk q), padd src (N.of_nat (8 * q)), N.of_nat (length y))) (m1 := m).
      - unfold q. lia.
      - intros k Hk. assert (Hk8 : (8 * k + 8 <= length x)%nat) by (unfold q in Hk; lia). cbn [snd]. split; [lia|]. unfold absorb_full_32.
        eapply runs_bind; [apply (r_load_word_at f a rs cf Ha Hcal m src (8 * k) x); auto; lia|].
        rewrite stf_blk; [|apply Wk|now apply bytes_firstn, bytes_skipn|rewrite firstn_length, skipn_length; lia].
        eapply runs_bind; [apply r_u; apply wf40_xorp; [now apply bytes_firstn, bytes_skipn|apply Wk]|].
        eapply runs_eq; [apply runs_ret| |reflexivity].
        unfold sk at 2. rewrite absA_S by lia. fold (sk k). rewrite padd_padd, sub64_small by lia.
        repeat f_equal; lia.
      - cbn [snd]. unfold q. lia.
      - unfold sk. rewrite Nat.mul_0_r. change (firstn 0 x) with (@nil N). rewrite chunks_nil.
        change (N.of_nat 0) with 0. rewrite padd_0, Nat.sub_0_r. reflexivity.
      - reflexivity.
      - rewrite Ly. f_equal. unfold q. lia.
      - reflexivity. }
    cbv beta iota.
    assert (B80 : bytes (y ++ [0x80])) by (apply bytes_app; split; auto; repeat constructor).
    destruct (Nat.eq_dec (length y) 0) as [E0|E0].
    - assert (E : y = []) by (destruct y; auto; discriminate). rewrite E in *. cbn [app length].
      change (N.of_nat 0) with 0.
      eapply runs_bind; [apply runs_if; cbn [N.ltb N.compare]; apply runs_ret|].
      apply runs_if. cbn [N.eqb].
      pose proof (stf_top f a rs (sk q) true Ha (Wk q)) as Et. unfold xor_b in Et.
      change (N.shiftl (u8 128) (8 * 7)) with (lane_eo 0 0x80000000) in Et. cbn [Spec.first_bit] in Et.
      rewrite Et. apply r_a. apply wf40_xorp; auto.
    - eapply runs_bind.
      { apply runs_if. replace (0 <? N.of_nat (length y)) with true by lia.
        eapply runs_bind.
        { apply (runs_for (fun k => (part (firstn k y), padd src (N.of_nat (8 * q + k)))) (fun _ => m))
            with (a1 := (part y, padd src (N.of_nat (8 * q + length y)))) (m1 := m).
          - intros k Hk. rewrite Nat2N.id in Hk. eapply runs_bind.
            + apply runs_load. rewrite (Nat2N.inj_add (8 * q) k), <- padd_padd.
              apply (has_skipn m src x (8 * q) Hx). exact Hk.
            + eapply runs_eq; [apply runs_ret| |reflexivity].
              rewrite (firstn_snoc y k 0) by lia.
              rewrite <- part_snoc.
              * rewrite firstn_length. rewrite padd_padd. fold y. repeat f_equal; lia.
              * now apply bytes_firstn.
              * rewrite firstn_length. lia.
          - cbn [firstn]. rewrite Nat.add_0_r. reflexivity.
          - reflexivity.
          - rewrite Nat2N.id, firstn_all. reflexivity.
          - reflexivity. }
        cbn [fst]. cbv zeta. rewrite part_snoc by (auto; lia).
        assert (L80 : length (y ++ [0x80]) = S (length y)) by (rewrite app_length; cbn [length]; lia).
        set (z := (y ++ [0x80]) ++ repeat 0 (8 - length (y ++ [0x80]))).
        assert (Bz : bytes z) by (apply bytes_app; split; auto; apply bytes_repeat; lia).
        assert (Lz : length z = 8%nat) by (unfold z; rewrite app_length, repeat_length; lia).
        unfold part. fold z. rewrite (lane_in f a rs) by auto. rewrite stf_blk by auto.
        apply r_a. now apply wf40_xorp. }
      apply runs_if. replace (N.of_nat (length y) =? 0) with false by lia.
      eapply runs_eq; [apply runs_ret| |reflexivity]. now rewrite xorp_zeros.
  Qed.

  Lemma mac32_ok : mac_spec_l A128 cs12 (fun _ => True) no_cond (2 ^ 64) (isap_mac_32 a u cf).
  Proof.
    intros mm k npub ad c tag K Nn A C Hc _ [BK Hk] LK [BN Hn] LN [BA HA] [BC HC] La Lc Rt _ _ _ _ _ _ _ _ _.
    destruct (cs12_ivs mm Hc) as (I1 & I2 & I3). change (v_inst A128) with I12. rewrite mac12_eq.
    set (s := mst12 Nn A C). assert (W : wf40 s) by now apply wf_mst12.
    assert (WK : wf40 (kst12 K s)) by now apply wf_kst12.
    unfold isap_mac_32.
    eapply runs_bind; [apply (r_load_word_at f a rs cf Ha Hcal mm npub 0 Nn); auto; lia|].
    eapply runs_bind; [apply (r_load_word_at f a rs cf Ha Hcal mm npub 8 Nn); auto; lia|].
    assert (Bi : bytes (Spec.iv_A I12)) by (apply bytes_iv12; lia).
    eapply runs_bind; [apply (r_load_word_at f a rs cf Ha Hcal mm RefIsap.ISAP_IV_A 0 (Spec.iv_A I12)); auto; cbn [Spec.iv_A Spec.iv length]; lia|].
    rewrite stf_init by auto. change (Spec.zpad IA (Nn ++ Spec.iv_A I12)) with (Spec.zpad I12 (Nn ++ Spec.iv_A I12)).
    assert (Wz : wf40 (Spec.zpad I12 (Nn ++ Spec.iv_A I12))).
    { apply wf_zpad12; [now apply bytes_app|rewrite app_length; cbn [Spec.iv_A Spec.iv length]; lia]. }
    eapply runs_bind; [now apply r_a|].
    set (s1 := ascon_p 12 _). assert (W1 : wf40 s1) by now apply wf40_ascon.
    eapply runs_bind; [now apply (r_absorb_32 mm ad A s1)|].
    set (s2 := absA s1 _). assert (W2 : wf40 s2) by (apply wf_absA; auto; now apply chunks_Forall, bytes_pad).
    change (lane_eo 1 0) with 1. rewrite (stf_dom f a rs) by auto.
    eapply runs_bind; [apply (r_absorb_32 mm c C); auto|].
    { apply wf40_xorp; auto. apply bytes_app. split; [apply bytes_repeat; lia|repeat constructor]. }
    change (absA (xorp s2 _) _) with s.
    set (Y := firstn 16 s).
    assert (LY : length Y = 16%nat) by (unfold Y; rewrite firstn_length, (proj1 W); reflexivity).
    apply (runs_with_block _ _ _ _ _ (map Some Y)).
    set (M0 := mm ++ [uninit 16]). set (yp := P (length mm) 0).
    assert (R0 : room M0 yp 16).
    { apply room_of_le. unfold yp, M0. cbn [pb po]. rewrite blk_mid, uninit_length. lia. }
    eapply runs_bind; [rewrite <- (putp_nil M0 yp) at 1; apply (r_store_lane f a rs cf Ha Hcal M0 yp s 0 16); auto; lia|].
    eapply runs_bind; [apply (r_store_lane f a rs cf Ha Hcal M0 yp s 1 16); auto; lia|].
    assert (E1 : putp M0 yp (firstn (8 * 2) s) = mm ++ [map Some Y]).
    { change (firstn (8 * 2) s) with Y. unfold M0, yp. unfold putp, put. cbn [pb po]. rewrite blk_mid, upd_mid.
      change (N.to_nat 0) with 0%nat. do 2 f_equal. apply splice_all. now rewrite map_length, uninit_length, LY. }
    rewrite E1. set (M1 := mm ++ [map Some Y]).
    assert (Hy : has M1 yp Y) by (apply has_blk0, blk_mid).
    set (R := rk12 K (Spec.iv_KA I12) Y).
    assert (WR : wf40 R) by (apply wf_rk12; auto; apply bytes_iv12; lia).
    apply (runs_with_block _ _ _ _ _ (map Some (eo_out 2 R))).
    set (M2 := M1 ++ [uninit 16]). set (kp := P (length M1) 0).
    assert (R2 : room M2 kp 16).
    { apply room_of_le. unfold kp, M2. cbn [pb po]. rewrite blk_mid, uninit_length. lia. }
    eapply runs_bind.
    { apply (r_isap_rk_32 M2 k RefIsap.ISAP_IV_KA yp kp _ K (Spec.iv_KA I12) Y 2); auto.
      - now apply has_app, has_app.
      - now apply has_app, has_app.
      - now apply has_app.
      - apply bytes_iv12. lia. }
    fold R.
    assert (E2 : putp M2 kp (eo_out 2 R) = M1 ++ [map Some (eo_out 2 R)]).
    { unfold M2, kp. unfold putp, put. cbn [pb po]. rewrite blk_mid, upd_mid.
      change (N.to_nat 0) with 0%nat. do 2 f_equal; apply splice_all; now rewrite map_length, uninit_length, eo_out_length. }
    rewrite E2. set (M3 := M1 ++ [map Some (eo_out 2 R)]).
    assert (Hk3 : has M3 kp (eo_out 2 R)) by (apply has_blk0, blk_mid).
    eapply runs_bind; [apply (r_load_out M3 kp R 2 0); auto; lia|].
    eapply runs_bind; [apply (r_load_out M3 kp R 2 1); auto; lia|].
    rewrite firstn16_skipn16 by auto. change (firstn 16 R ++ skipn 16 s) with (kst12 K s).
    eapply runs_bind; [now apply r_a|].
    set (s3 := ascon_p 12 (kst12 K s)). assert (W3 : wf40 s3) by now apply wf40_ascon.
    assert (Rt1 : room M1 tag 16) by now apply room_app.
    assert (Rt3 : room M3 tag 16) by now apply room_app.
    eapply runs_bind; [rewrite <- (putp_nil M3 tag) at 1; apply (r_store_lane f a rs cf Ha Hcal M3 tag s3 0 16); auto; lia|].
    eapply runs_eq; [apply (r_store_lane f a rs cf Ha Hcal M3 tag s3 1 16); auto; lia|reflexivity|].
    change (8 * 2)%nat with 16%nat.
    unfold M3. rewrite putp_app by (rewrite firstn_length, (proj1 W3); exact Rt1). f_equal.
    unfold M1. apply putp_app. rewrite firstn_length, (proj1 W3). exact Rt.
  Qed.

  Lemma enc32_ok : enc_spec_l A128 cs12 (fun _ => True) no_cond (2 ^ 64) (isap_enc_32 a u cf).
  Proof.
    intros mm k npub mp c K Nn T Hc _ [BK Hk] LK [BN Hn] LN [BT HT] L64 HT0 Rc _ _ _ Hf _ _ _ _.
    destruct (cs12_ivs mm Hc) as (I1 & I2 & I3). change (v_inst A128) with I12.
    assert (Bi : bytes (Spec.iv_KE I12)) by (apply bytes_iv12; lia).
    set (R := rk12 K (Spec.iv_KE I12) Nn). assert (WR : wf40 R) by now apply wf_rk12.
    set (blk1 := map Some (eo_out 3 R)).
    unfold isap_enc_32. apply (runs_with_block _ _ _ _ _ blk1).
    set (M0 := mm ++ [uninit 24]). set (sp := P (length mm) 0).
    assert (R0 : room M0 sp 24).
    { apply room_of_le. unfold sp, M0. cbn [pb po]. rewrite blk_mid, uninit_length. lia. }
    eapply runs_bind.
    { apply (r_isap_rk_32 M0 k RefIsap.ISAP_IV_KE npub sp _ K (Spec.iv_KE I12) Nn 3); auto; now apply has_app. }
    fold R.
    assert (E1 : putp M0 sp (eo_out 3 R) = mm ++ [blk1]).
    { unfold M0, sp, putp, put. cbn [pb po]. rewrite blk_mid, upd_mid. change (N.to_nat 0) with 0%nat.
      do 2 f_equal; apply splice_all; now rewrite map_length, uninit_length, eo_out_length. }
    rewrite E1. set (M1 := mm ++ [blk1]).
    assert (Hs : has M1 sp (eo_out 3 R)) by (apply has_blk0, blk_mid).
    assert (F1 : forall q bs, has mm q bs -> has M1 q bs) by (intros; now apply has_app).
    set (s0 := est12 K Nn). assert (W0 : wf40 s0) by now apply wf_est12.
    assert (G : forall i, (i < 3)%nat -> runs (load_eo cf (padd sp (8 * N.of_nat i))) M1 (getx (stf f s0) i) M1).
    { intros i Hi. eapply runs_eq; [apply (r_load_out M1 sp R 3 i); auto; lia| |reflexivity].
      rewrite !stf_getx by (auto; lia). do 2 f_equal. unfold lane_bytes, s0, est12. fold R.
      rewrite skipn_app, firstn_app, skipn_length, firstn_length, (proj1 WR).
      replace (8 - _)%nat with 0%nat by lia. rewrite firstn_O, app_nil_r.
      rewrite skipn_firstn_comm, firstn_firstn. f_equal. lia. }
    assert (G3 : forall i, (i < 2)%nat -> runs (load_word a cf (padd npub (8 * N.of_nat i))) M1 (getx (stf f s0) (3 + i)) M1).
    { intros i Hi. replace (8 * N.of_nat i) with (N.of_nat (8 * i)) by lia. rewrite stf_getx by (auto; lia).
      eapply runs_eq; [apply (r_load_word_at f a rs cf Ha Hcal M1 npub (8 * i) Nn); auto; lia| |reflexivity].
      f_equal. f_equal. unfold lane_bytes, s0, est12. fold R. rewrite skipn_app, firstn_length, (proj1 WR).
      rewrite (skipn_all2 (firstn 24 R)) by (rewrite firstn_length, (proj1 WR); lia). cbn [app]. do 2 f_equal. lia. }
    eapply runs_bind; [apply (G 0%nat); lia|].
    eapply runs_bind; [apply (G 1%nat); lia|].
    eapply runs_bind; [apply (G 2%nat); lia|].
    eapply runs_bind; [apply (G3 0%nat); lia|].
    eapply runs_bind; [apply (G3 1%nat); lia|].
    change (3 + 0)%nat with 3%nat. change (3 + 1)%nat with 4%nat. rewrite stf_list by auto.
    set (pE := ascon_p 12).
    assert (Wi : forall j, wf40 (iter pE j s0)) by (intros j; apply iter_ok; auto; intros; now apply wf40_ascon).
    set (ct := Spec.isap_enc I12 K Nn T).
    assert (Lct : length ct = length T) by now apply (v_enc_length A128).
    assert (HT1 : has M1 mp T) by auto.
    assert (Rc1 : room M1 c (length T)) by now apply room_app.
    assert (Rk : forall n, (n <= length T)%nat -> room M1 c (length (firstn n ct))).
    { intros n Hnl i Hi. apply Rc1. rewrite firstn_length in Hi. lia. }
    set (q := (length T / 8)%nat).
    assert (Hq : (8 * q <= length T < 8 * q + 8)%nat) by (unfold q; lia).
    eapply runs_bind.
    { apply (runs_while (fun j => (stf f (iter pE j s0), padd mp (N.of_nat (8 * j)), N.of_nat (length T - 8 * j), padd c (N.of_nat (8 * j))))
               (fun j => putp M1 c (firstn (8 * j) ct)) q)
        with (a1 := (stf f (iter pE q s0), padd mp (N.of_nat (8 * q)), N.of_nat (length T - 8 * q), padd c (N.of_nat (8 * q))))
             (m1 := putp M1 c (firstn (8 * q) ct)).
      - unfold q. lia.
      - intros j Hj. assert (Hj8 : (8 * j + 8 <= length T)%nat) by lia.
        cbn [snd fst]. split; [lia|]. unfold enc_full_32.
        eapply runs_bind; [apply r_u; apply Wi|]. change (ascon_p 12 (iter pE j s0)) with (iter pE (S j) s0).
        set (tb := firstn 8 (skipn (8 * j) T)).
        assert (Lb : length tb = 8%nat) by (unfold tb; rewrite firstn_length, skipn_length; lia).
        assert (Bb : bytes tb) by now apply bytes_firstn, bytes_skipn.
        eapply runs_bind.
        { apply (runs_load_ull cf _ (le_word tb)).
          - rewrite word_le_le_word by auto. apply (next_text cf 64 Hcal Hlax (N.le_refl 64) M1 mp c T ct (8 * j) 8); auto.
          - apply al4.
          - pose proof (le_word_lt tb Bb) as H. now rewrite Lb in H. }
        eapply runs_bind.
        { apply runs_store_ull.
          - apply room_putp; [apply Rk; lia|]. apply (room_sub M1 c (length T)); auto.
          - apply al4. }
        eapply runs_eq; [apply runs_ret| |].
        + rewrite !padd_padd, sub64_small by lia. repeat f_equal; lia.
        + rewrite word_le_xor, word_le_le_word by auto.
          rewrite (proj1 (lane_out f a rs (iter pE (S j) s0) 0 Ha (Wi (S j)) ltac:(lia))).
          pose proof (ct_block cf 64 Hcal (N.le_refl 64) K Nn T j LK LN BK BN Hj8) as E. cbv zeta in E. fold ct s0 tb pE in E.
          rewrite E. rewrite <- putp_app_bytes.
          * rewrite firstn_length. do 2 f_equal. lia.
          * rewrite <- E. apply Rk. lia.
      - cbn [snd fst]. lia.
      - rewrite Nat.mul_0_r. change (N.of_nat 0) with 0. rewrite !padd_0, Nat.sub_0_r. reflexivity.
      - rewrite Nat.mul_0_r. change (firstn 0 ct) with (@nil N). apply putp_nil.
      - reflexivity.
      - reflexivity. }
    cbv beta iota. apply runs_if.
    assert (Fin : forall n, (length T <= n)%nat -> putp M1 c (firstn n ct) = putp mm c ct ++ [blk1]).
    { intros n Hn'. rewrite firstn_all2 by lia. unfold M1. apply putp_app. now rewrite Lct. }
    destruct (N.ltb_spec 0 (N.of_nat (length T - 8 * q))) as [Hlt|Hge].
    - eapply runs_bind; [apply r_a; apply Wi|]. change (ascon_p 12 (iter pE q s0)) with (iter pE (S q) s0).
      eapply runs_eq; [|reflexivity|apply (Fin (length T)); lia].
      eapply runs_bind; [|apply runs_ret].
      apply (runs_for (fun j => (padd mp (N.of_nat (8 * q + j)), padd c (N.of_nat (8 * q + j))))
               (fun j => putp M1 c (firstn (8 * q + j) ct)))
        with (a1 := (padd mp (N.of_nat (length T)), padd c (N.of_nat (length T)))).
      + rewrite Nat2N.id. intros j Hj.
        eapply runs_bind.
        { apply runs_load. rewrite <- (padd_0 (padd mp _)). change 0 with (N.of_nat 0) at 1.
          apply (next_text cf 64 Hcal Hlax (N.le_refl 64) M1 mp c T ct (8 * q + j) 1); auto; try lia. rewrite firstn_length, skipn_length. lia. }
        eapply runs_bind.
        { apply runs_store1. rewrite inside_putp by (apply Rk; lia). apply Rc1. lia. }
        eapply runs_eq; [apply runs_ret| |].
        * rewrite !padd_padd. repeat f_equal; lia.
        * rewrite Nat.add_succ_r. rewrite (firstn_snoc ct (8 * q + j) 0) by lia.
          rewrite <- putp_app_bytes.
          -- rewrite firstn_length. f_equal; [f_equal; lia|]. f_equal.
             unfold ct. rewrite enc12_nth by (auto; lia). rewrite Nat2N.id. rewrite nth_firstn_lt, nth_skipn_add by lia.
             rewrite <- nth_word_le with (n := 8%nat) by lia.
             rewrite (proj1 (lane_out f a rs (iter pE (S q) s0) 0 Ha (Wi (S q)) ltac:(lia))). unfold lane_bytes.
             rewrite nth_firstn_lt by lia. rewrite Nat.mul_0_r. cbn [skipn]. replace ((8 * q + j) / 8)%nat with q by lia.
             fold s0 pE. f_equal; f_equal; lia.
          -- rewrite <- firstn_snoc by lia. apply Rk. lia.
      + rewrite Nat.add_0_r. reflexivity.
      + now rewrite Nat.add_0_r.
      + rewrite Nat2N.id. repeat f_equal; lia.
      + rewrite Nat2N.id. f_equal. f_equal. lia.
    - eapply runs_eq; [apply runs_ret|reflexivity|]. apply Fin. lia.
  Qed.
End Opt32Proof.
