(* The STP implementations: what isap_mac, pvp and the two API functions compute. Proofs only, apart from auxiliary notions. *)
From Verif Require Import Base Prog Poly SpecPerm Words AsconProof Mem Vocab Vocab2 MemProof RefLib Sponge RefProof RefAead SpecFacts.
From Verif Require Import Api ApiProof OptPerm OptRep OptPermProof OptIsap OptLanes OptProof OptImpl OptStp.
From Verif Require Spec RefIsap ApiCode.
Open Scope N_scope.
Open Scope cm_scope.

Lemma putp_comm m p x q y : room m p (length x) -> room m q (length y) -> disj p (length x) q (length y) ->
  putp (putp m p x) q y = putp (putp m q y) p x.
Proof.
  intros Rp Rq D. apply mem_ext_cellp; [now rewrite !putp_length|]. intros r.
  assert (Rp' : room (putp m q y) p (length x)) by now apply room_putp.
  assert (Rq' : room (putp m p x) q (length y)) by now apply room_putp.
  rewrite !cellp_putp by auto.
  destruct (within q (length y) r) eqn:Eq; destruct (within p (length x) r) eqn:Ep; auto.
  destruct (within_inv _ _ _ Eq) as (i & Hi & Ei). destruct (within_inv _ _ _ Ep) as (j & Hj & Ej).
  exfalso. apply (D j i Hj Hi). congruence.
Qed.

Lemma app_inj_len {X} (l l' r r' : list X) : l ++ r = l' ++ r' -> length l = length l' -> l = l' /\ r = r'.
Proof.
  revert l'. induction l as [|x l IH]; intros [|y l'] E L; cbn in *; try discriminate; auto.
  injection E as -> E. destruct (IH l' E) as [-> ->]; auto.
Qed.

Lemma disj_sym p n q k : disj p n q k -> disj q k p n.
Proof. intros H i j Hi Hj E. now apply (H j i Hj Hi). Qed.

Lemma wf40_image t s : length t = 16%nat -> bytes t -> wf40 s -> wf40 (t ++ firstn 16 s ++ repeat 0 8).
Proof.
  intros L B [Ls Bs]. split.
  - rewrite !app_length, firstn_length, repeat_length. lia.
  - apply bytes_app. split; auto. apply bytes_app. split; [now apply bytes_firstn|apply bytes_repeat; lia].
Qed.

Section StpProof.
  Variables (f : nat -> nat) (a : asconp) (rs : list nat) (cf : cfg).
  Hypothesis Ha : ap_ok f a rs.
  Hypothesis Hr12 : In 12%nat rs.
  Hypothesis Hr1 : In 1%nat rs.
  Hypothesis Hr6 : In 6%nat rs.
  Hypothesis Hr7 : In 7%nat rs.
  Hypothesis Hal : forall p, al8 cf p.

  Definition g0 (s : list N) : list N := word_le 8 (getx (stf f s) 0).
  Definition g1 (s : list N) : list N := word_le 8 (getx (stf f s) 1).
  Definition put_globals (m : mem) (s : list N) : mem := putp (putp m S0 (g0 s)) S1 (g1 s).

  Lemma g0_length s : length (g0 s) = 8%nat. Proof. apply word_le_length. Qed.
  Lemma g1_length s : length (g1 s) = 8%nat. Proof. apply word_le_length. Qed.

  Lemma r_stp_mac m k npub ad c tag K Nn A C : consts_ok opt_consts m -> room m S0 8 -> room m S1 8 ->
    bytes_at m k K -> length K = 16%nat -> bytes_at m npub Nn -> length Nn = 16%nat -> bytes_at m ad A -> bytes_at m c C ->
    N.of_nat (length A) < 2 ^ 64 -> N.of_nat (length C) < 2 ^ 64 -> room m tag 16 ->
    disj S0 8 k 16 -> disj S1 8 k 16 ->
    runs (OptStp.isap_mac a cf k npub ad (N.of_nat (length A)) c (N.of_nat (length C)) tag) m tt
      (putp (put_globals m (mac_st Nn A C)) tag (Spec.isap_mac IA K Nn A C)).
  Proof.
    intros Hc R0 R1 [BK Hk] LK [BN Hn] LN [BA HA] [BC HC] La Lc Rt D0 D1.
    destruct (opt_ivs m Hc) as (I1 & I2 & I3 & _).
    assert (Hcal : forall i, (i < 4)%nat -> al8 cf (P i 0)) by auto.
    unfold OptStp.isap_mac.
    eapply runs_bind; [apply (r_mac_state f a rs cf Ha Hr12 Hcal m npub ad c Nn A C); auto|].
    assert (W : wf40 (mac_st Nn A C)) by now apply wf_mac_st.
    set (s := mac_st Nn A C) in *.
    assert (Al0 : forall p, aligned cf p 8 = true).
    { intros p. specialize (Hal p 0%nat). cbn in Hal. now rewrite padd_0 in Hal. }
    eapply runs_bind; [apply runs_store_ull; auto|]. fold (g0 s).
    assert (R0' : room m S0 (length (g0 s))) by now rewrite g0_length.
    assert (R1' : room (putp m S0 (g0 s)) S1 (length (g1 s))) by (rewrite g1_length; now apply room_putp).
    eapply runs_bind; [apply runs_store_ull; auto|].
    fold (g1 s). fold (put_globals m s).
    rewrite mac_spec_eq. apply (r_mac_tag f a rs cf Ha Hr12 Hr1 Hcal); auto.
    - unfold put_globals. apply has_putp_disj; [auto| |rewrite g1_length, LK; auto].
      apply has_putp_disj; [auto|auto|rewrite g0_length, LK; auto].
    - assert (C2 : consts_ok opt_consts (put_globals m s)).
      { unfold put_globals. apply consts_putp; [apply consts_putp; [exact Hc|]|]; cbn; lia. }
      apply (opt_ivs _ C2).
    - unfold put_globals. apply room_putp; auto. now apply room_putp.
  Qed.

  Lemma r_pvp_state m p t s : bytes_at m p t -> length t = 16%nat -> wf40 s -> has m S0 (g0 s) -> has m S1 (g1 s) ->
    runs (pvp_state a cf p) m (stf f (ascon_p 7 (t ++ firstn 16 s ++ repeat 0 8))) m.
  Proof.
    intros [B H] L W H0 H1. unfold pvp_state.
    assert (Hcal : forall i, (i < 4)%nat -> al8 cf (P i 0)) by auto.
    assert (Al0 : forall p, aligned cf p 8 = true).
    { intros q. specialize (Hal q 0%nat). cbn in Hal. now rewrite padd_0 in Hal. }
    assert (W64 : forall i, (i < 5)%nat -> getx (stf f s) i < 2 ^ 64).
    { intros i Hi. rewrite stf_getx by auto. apply permw_w64. }
    eapply runs_bind; [apply (r_load_word_at f a rs cf Ha Hcal m p 0 t); auto; lia|].
    eapply runs_bind; [apply (r_load_word_at f a rs cf Ha Hcal m p 8 t); auto; lia|].
    eapply runs_bind; [apply (runs_load_ull cf S0 (getx (stf f s) 0)); auto; apply W64; lia|].
    eapply runs_bind; [apply (runs_load_ull cf S1 (getx (stf f s) 1)); auto; apply W64; lia|].
    assert (E : [permw f (be_word (firstn 8 (skipn 0 t))); permw f (be_word (firstn 8 (skipn 8 t)));
                 getx (stf f s) 0; getx (stf f s) 1; 0] = stf f (t ++ firstn 16 s ++ repeat 0 8)).
    { pose proof (wf40_image t s L B W) as W2.
      rewrite !stf_getx by (auto; lia).
      destruct (wf40_split s W) as (b1 & b2 & b3 & b4 & b5 & -> & (M1 & M2 & M3 & M4 & M5) & _).
      assert (Ef : firstn 16 (b1 ++ b2 ++ b3 ++ b4 ++ b5) = b1 ++ b2).
      { rewrite app_assoc, firstn_app, firstn_all2 by (rewrite app_length; lia).
        replace (16 - length (b1 ++ b2))%nat with 0%nat by (rewrite app_length; lia). now rewrite firstn_O, app_nil_r. }
      rewrite Ef.
      assert (El0 : lane_bytes (b1 ++ b2 ++ b3 ++ b4 ++ b5) 0 = b1).
      { unfold lane_bytes. rewrite Nat.mul_0_r, skipn_O, firstn_app, M1, Nat.sub_diag, firstn_O, app_nil_r. apply firstn_all2. lia. }
      assert (El1 : lane_bytes (b1 ++ b2 ++ b3 ++ b4 ++ b5) 1 = b2).
      { unfold lane_bytes. rewrite Nat.mul_1_r, skipn_app, M1, Nat.sub_diag, skipn_O, (skipn_all2 b1) by lia.
        cbn [app]. rewrite firstn_app, M2, Nat.sub_diag, firstn_O, app_nil_r. apply firstn_all2. lia. }
      rewrite El0, El1. rewrite skipn_O.
      assert (Et : t = firstn 8 t ++ firstn 8 (skipn 8 t)).
      { rewrite <- (firstn_skipn 8 t) at 1. f_equal. symmetry. apply firstn_all2. rewrite skipn_length. lia. }
      rewrite Et at 3. rewrite <- !app_assoc.
      unfold stf. rewrite lanes_split.
      - cbn [map]. change (be_word (repeat 0 8)) with 0. now rewrite permw_0.
      - rewrite !firstn_length, skipn_length, repeat_length. lia. }
    rewrite E. apply (r_perm f a rs Ha 7); auto. now apply wf40_image.
  Qed.

  Lemma r_count u v e (m : mem) : runs (count_eq u v e) m (e + eqs 8 (word_le 8 u) (word_le 8 v)) m.
  Proof.
    unfold count_eq. apply (runs_for (fun j => e + eqs j (word_le 8 u) (word_le 8 v)) (fun _ => m)); auto.
    - change (N.to_nat 8) with 8%nat. intros j Hj. eapply runs_eq; [apply runs_ret| |reflexivity].
      cbn [eqs]. rewrite !nth_word_le by lia. rewrite Nat2N.id. lia.
    - cbn [eqs]. lia.
  Qed.

  Lemma stf_lane_eq x y i : wf40 x -> wf40 y -> (i < 5)%nat ->
    (word_le 8 (getx (stf f x) i) = word_le 8 (getx (stf f y) i) <-> lane_bytes x i = lane_bytes y i).
  Proof.
    intros Wx Wy Hi. rewrite !stf_getx by auto. split; [|now intros ->].
    intros E. assert (E2 : permw f (be_word (lane_bytes x i)) = permw f (be_word (lane_bytes y i))).
    { rewrite <- (le_word_word_le 8 (permw f (be_word (lane_bytes x i)))) by apply permw_w64.
      rewrite E. apply le_word_word_le. apply permw_w64. }
    apply (ap_inj f a rs Ha) in E2; try (now apply lane_w64).
    rewrite <- (word_be_be_word (lane_bytes x i) 8) by (apply lane_bytes_bytes || apply lane_bytes_length; auto).
    rewrite <- (word_be_be_word (lane_bytes y i) 8) by (apply lane_bytes_bytes || apply lane_bytes_length; auto).
    now rewrite E2.
  Qed.

  Lemma lanes16 x : wf40 x -> firstn 16 x = lane_bytes x 0 ++ lane_bytes x 1.
  Proof.
    intros W. unfold lane_bytes. rewrite Nat.mul_0_r, Nat.mul_1_r, skipn_O.
    rewrite <- (firstn_skipn 8 (firstn 16 x)) at 1. rewrite firstn_firstn. cbn [Nat.min]. f_equal.
    rewrite skipn_firstn_comm. reflexivity.
  Qed.

  Definition u_of (t s : list N) : N * N :=
    let x := stf f (ascon_p 7 (t ++ firstn 16 s ++ repeat 0 8)) in (getx x 0, getx x 1).

  Lemma r_pvp_first m p t s : bytes_at m p t -> length t = 16%nat -> wf40 s -> has m S0 (g0 s) -> has m S1 (g1 s) ->
    runs (pvp_first a cf p) m (u_of t s) m.
  Proof.
    intros Bt Lt W H0 H1. unfold pvp_first. eapply runs_bind; [exact (r_pvp_state m p t s Bt Lt W H0 H1)|]. apply runs_ret.
  Qed.

  Lemma r_pvp_second m q t u s : bytes t -> length t = 16%nat -> bytes_at m q u -> length u = 16%nat -> wf40 s ->
    has m S0 (g0 s) -> has m S1 (g1 s) ->
    exists n, runs (pvp_second a cf q (u_of t s)) m n m /\ (n = 16 <-> image u s = image t s).
  Proof.
    intros Bt Lt Bu Lu W H0 H1. unfold pvp_second, u_of.
    pose proof (wf40_ascon 7 _ (wf40_image t s Lt Bt W)) as Wt.
    pose proof (wf40_ascon 7 _ (wf40_image u s Lu (proj1 Bu) W)) as Wu.
    pose proof (r_pvp_state m q u s Bu Lu W H0 H1) as Ru.
    unfold image.
    set (x := ascon_p 7 (t ++ _)) in *. set (y := ascon_p 7 (u ++ _)) in *.
    eexists. split.
    - cbv zeta. cbn [fst snd]. eapply runs_bind; [exact Ru|].
      eapply runs_bind; [apply r_count|]. apply r_count.
    - set (e0 := eqs 8 _ _). set (e1 := eqs 8 (word_le 8 (getx (stf f y) 1)) _).
      assert (B0 : e0 <= 8) by apply (eqs_le 8). assert (B1 : e1 <= 8) by apply (eqs_le 8).
      assert (Q0 : e0 = 8 <-> word_le 8 (getx (stf f y) 0) = word_le 8 (getx (stf f x) 0)) by (apply (eqs_eq _ _ 8); apply word_le_length).
      assert (Q1 : e1 = 8 <-> word_le 8 (getx (stf f y) 1) = word_le 8 (getx (stf f x) 1)) by (apply (eqs_eq _ _ 8); apply word_le_length).
      rewrite stf_lane_eq in Q0, Q1 by (auto; lia).
      rewrite !lanes16 by auto.
      assert (Sp : lane_bytes y 0 ++ lane_bytes y 1 = lane_bytes x 0 ++ lane_bytes x 1 <->
                   lane_bytes y 0 = lane_bytes x 0 /\ lane_bytes y 1 = lane_bytes x 1).
      { split; [|now intros [-> ->]]. intros E. apply app_inj_len in E; auto; now rewrite !lane_bytes_length by (auto; lia). }
      rewrite Sp, <- Q0, <- Q1. lia.
  Qed.

  Lemma room_S m : room m S0 8 -> room m S1 8 -> (5 < length m)%nat.
  Proof. intros _ H. apply (room_pb m S1 8 H). lia. Qed.

  Lemma globals_has m s : room m S0 8 -> room m S1 8 ->
    has (put_globals m s) S0 (g0 s) /\ has (put_globals m s) S1 (g1 s) /\
    (forall q n, room m q n -> room (put_globals m s) q n) /\
    (forall q bs, has m q bs -> disj S0 8 q (length bs) -> disj S1 8 q (length bs) -> has (put_globals m s) q bs) /\
    (consts_ok opt_consts m -> consts_ok opt_consts (put_globals m s)) /\ length (put_globals m s) = length m.
  Proof.
    intros R0 R1. unfold put_globals.
    assert (R0' : room m S0 (length (g0 s))) by now rewrite g0_length.
    assert (R1' : room (putp m S0 (g0 s)) S1 (length (g1 s))) by (rewrite g1_length; now apply room_putp).
    split; [|split; [|split; [|split; [|split]]]].
    - apply has_putp_disj; auto; [now apply has_putp_same|]. apply disj_blocks. cbn. lia.
    - now apply has_putp_same.
    - intros. apply room_putp; auto. now apply room_putp.
    - intros q bs H D0 D1. apply has_putp_disj; auto; rewrite ?g1_length; auto. apply has_putp_disj; auto.
    - intros C. apply consts_putp; [apply consts_putp; [exact C|]|]; cbn; lia.
    - now rewrite !putp_length.
  Qed.

  Variable junk : state.
  Hypothesis Hj : length junk = 5%nat.

  Lemma stp_enc mm c clen m ad npub k K Nn A T :
    enc_valid cf opt_consts mm c clen m ad npub k K Nn A T ->
    apart mm S0 S1 [(k, 16); (npub, 16); (ad, length A); (m, length T); (c, length T + 16); (clen, 8)]%nat ->
    exists h0 h1, length h0 = 8%nat /\ length h1 = 8%nat /\
    runs (a_enc (stp_impl a cf junk) c clen m (N.of_nat (length T)) ad (N.of_nat (length A)) npub k) mm 0%Z
      (putp (putp (putp (putp mm clen (word_le 8 (N.of_nat (length T) + 16))) c (Spec.isap_encrypt IA K Nn A T)) S0 h0) S1 h1).
  Proof.
    intros V (R0 & R1 & Hap).
    destruct V as [Vc [[Bk Hk] Lk] [[Bn Hn] Ln] [[Ba Had] La] [[Bt Ht] Lt] [Rc Pc] [Rl [Pl Al]]
      (D1 & D2 & D3 & D4 & D5) (D6 & D7 & D8) Hf].
    rewrite !Forall_cons_iff in Hap. cbn [fst snd] in Hap.
    destruct Hap as ((Ek & Ek') & (En & En') & (Ea & Ea') & (Em & Em') & (Ec & Ec') & (El & El') & _).
    exists (g0 (mac_st Nn A (Spec.isap_enc IA K Nn T))), (g1 (mac_st Nn A (Spec.isap_enc IA K Nn T))).
    split; [apply g0_length|]. split; [apply g1_length|].
    cbn [stp_impl a_enc]. unfold crypto_aead_encrypt, ApiCode.crypto_aead_encrypt, RefIsap.ISAP_TAG_SZ.
    rewrite u64_small by lia.
    set (m1 := putp mm clen (word_le 8 (N.of_nat (length T) + 16))).
    assert (Hl8 : room mm clen (length (word_le 8 (N.of_nat (length T) + 16)))) by now rewrite word_le_length.
    eapply runs_bind; [apply runs_store_ull; auto|]. fold m1.
    assert (F1 : forall q bs, has mm q bs -> disj clen 8 q (length bs) -> has m1 q bs).
    { intros q bs H1 H2. apply has_putp_disj; rewrite ?word_le_length; auto. }
    assert (Q1 : forall q n, room mm q n -> room m1 q n) by (intros; now apply room_putp).
    assert (C1 : consts_ok opt_consts m1) by now apply consts_putp.
    set (ct := Spec.isap_enc IA K Nn T).
    assert (Lct : length ct = length T) by now apply (v_enc_length A128A).
    assert (Bct : bytes ct) by now apply (v_enc_bytes A128A).
    assert (Rc1 : room m1 c (length ct)).
    { apply Q1. intros i Hi. apply Rc. lia. }
    assert (Hcal : forall i, (i < 4)%nat -> al8 cf (P i 0)) by auto.
    apply (runs_bind _ _ _ tt (putp m1 c ct)).
    { apply runs_if_skip.
      - intros E. apply (opt_enc_ok f a rs cf Ha Hr12 Hr1 Hr6 Hcal junk Hj); auto.
        + intros b Hb. exact Logic.I.
        + split; auto. apply F1; auto. now rewrite Lk.
        + split; auto. apply F1; auto. now rewrite Ln.
        + split; auto.
        + lia.
        + lia.
        + now rewrite Lct in Rc1.
        + eapply disj_sub; [exact D6|lia|lia].
        + eapply disj_sub; [exact D7|lia|lia].
      - intros E. assert (length T = 0)%nat by lia. destruct ct; [now rewrite putp_nil|]. cbn [length] in Lct. lia. }
    set (m2 := putp m1 c ct).
    assert (F2 : forall q bs, has m1 q bs -> disj c (length T + 16) q (length bs) -> has m2 q bs).
    { intros q bs H1 H2. apply has_putp_disj; auto. apply (disj_sub _ _ _ _ _ _ H2); lia. }
    assert (Q2 : forall q n, room mm q n -> room m2 q n) by (intros; apply room_putp; auto).
    assert (Ds : forall q n, disj q n c (length T + 16) -> disj q n (padd c (N.of_nat (length ct))) 16).
    { intros q n H i j Hi Hjj. rewrite padd_padd. replace (N.of_nat (length ct) + N.of_nat j) with (N.of_nat (length ct + j)) by lia.
      apply H; lia. }
    assert (Rt : room m2 (padd c (N.of_nat (length ct))) 16).
    { apply Q2. rewrite Lct. apply (room_sub mm c (length T + 16)); auto. }
    pose proof (v_mac A128A K Nn A ct Lk Ln Bk Bn Ba Bct) as [BT LT]. change (v_inst A128A) with IA in *.
    eapply runs_bind; [|eapply runs_eq; [apply runs_ret|reflexivity|]].
    - rewrite <- Lct. apply r_stp_mac with (K := K) (Nn := Nn) (A := A) (C := ct); auto.
      + now apply consts_putp.
      + split; auto. apply F2; [apply F1; auto|]; now rewrite Lk.
      + split; auto. apply F2; [apply F1; auto|]; now rewrite Ln.
      + split; auto.
      + split; auto. now apply has_putp_same.
      + lia.
    - set (s := mac_st Nn A ct). set (tag := Spec.isap_mac IA K Nn A ct) in *.
      unfold Spec.isap_encrypt. fold ct. cbv zeta. fold tag. unfold put_globals.
      assert (R0' : room m2 S0 (length (g0 s))) by (rewrite g0_length; auto).
      assert (R1' : room m2 S1 (length (g1 s))) by (rewrite g1_length; auto).
      assert (Rt' : room m2 (padd c (N.of_nat (length ct))) (length tag)) by now rewrite LT.
      rewrite (putp_comm (putp m2 S0 (g0 s)) S1).
      + rewrite (putp_comm m2 S0) by (rewrite ?g0_length, ?LT; auto).
        f_equal. f_equal. unfold m2. rewrite putp_app_bytes; auto. rewrite app_length, LT, Lct. auto.
      + now apply room_putp.
      + now apply room_putp.
      + rewrite g1_length, LT. auto.
  Qed.

  Lemma r_copy mm mlen c C tg : bytes_at mm c (C ++ tg) -> length tg = 16%nat -> N.of_nat (length (C ++ tg)) < 2 ^ 64 ->
    has mm mlen (word_le 8 (N.of_nat (length C))) ->
    runs (copy_tag cf mlen c (P (length mm) 0)) (mm ++ [uninit 16]) tt (mm ++ [map Some tg]).
  Proof.
    intros [BY HY] Ltg LY Hml.
    assert (Al0 : forall p, aligned cf p 8 = true).
    { intros q. specialize (Hal q 0%nat). cbn in Hal. now rewrite padd_0 in Hal. }
    rewrite app_length, Ltg in LY. apply bytes_app in BY. destruct BY as [BC Btg].
    assert (Htg : has mm (padd c (N.of_nat (length C))) tg).
    { replace tg with (skipn (length C) (C ++ tg)); [now apply has_skipn|]. rewrite skipn_app, skipn_all, Nat.sub_diag. reflexivity. }
    set (Ts := P (length mm) 0). set (m2 := mm ++ [map Some tg]).
    set (mu := mm ++ [uninit 16]).
    assert (RTs : room mu Ts 16) by (apply room_of_le; unfold mu, Ts; cbn [pb po]; rewrite blk_mid, uninit_length; lia).
    unfold copy_tag.
    apply (runs_for (fun _ => tt) (fun j => putp mu Ts (firstn j tg))); auto.
    - change (N.to_nat 16) with 16%nat. intros j Hjj.
      assert (Lf : length (firstn j tg) = j) by (rewrite firstn_length; lia).
      assert (Rj : room mu Ts (length (firstn j tg))).
      { intros i Hi. apply RTs. lia. }
      assert (Dq : forall q bs, has mm q bs -> has (putp mu Ts (firstn j tg)) q bs).
      { intros q bs H. apply has_putp_disj; auto; [now apply has_app|].
        destruct bs as [|b0 bs]; [intros x y Hx Hy; cbn [length] in Hy; lia|].
        apply disj_blocks. unfold Ts. cbn [pb]. apply Nat.neq_sym, Nat.lt_neq, (has_pb mm q (b0 :: bs)); auto. discriminate. }
      eapply runs_bind; [apply (runs_load_ull cf mlen (N.of_nat (length C))); auto; lia|].
      eapply runs_bind.
      + rewrite u64_small by lia. rewrite <- padd_padd. apply runs_load, (Dq _ _ Htg). lia.
      + eapply runs_eq; [apply runs_store1|reflexivity|].
        * rewrite inside_putp by auto. apply RTs. lia.
        * rewrite <- Lf at 2. rewrite putp_app_bytes.
          -- f_equal. symmetry. apply firstn_snoc. lia.
          -- rewrite app_length, Lf. cbn [length]. intros i Hi. apply RTs. lia.
    - rewrite firstn_O. apply putp_nil.
    - change (N.to_nat 16) with 16%nat. rewrite firstn_all2 by lia. unfold mu, Ts, m2, putp, put. cbn [pb po].
      rewrite blk_mid, upd_mid. change (N.to_nat 0) with 0%nat. rewrite splice_all; [reflexivity|]. now rewrite map_length, uninit_length, Ltg.
  Qed.

  Lemma r_finish m2 m mlen c npub k K Nn C n (ok : bool) : (n = 16 <-> ok = true) ->
    consts_ok opt_consts m2 -> bytes_at m2 k K -> length K = 16%nat -> bytes_at m2 npub Nn -> length Nn = 16%nat ->
    bytes_at m2 c C -> N.of_nat (length C) < 2 ^ 64 -> has m2 mlen (word_le 8 (N.of_nat (length C))) ->
    room m2 m (length C) -> (length opt_consts <= pb m)%nat -> disj m (length C) k 16 -> disj m (length C) npub 16 -> fwd_ok m c (length C) ->
    runs (finish a cf junk m mlen c npub k n) m2 (if ok then 0 else -1)%Z (if ok then putp m2 m (Spec.isap_enc IA K Nn C) else m2).
  Proof.
    intros En Hc [BK Hk] LK [BN Hn] LN [BC HC] LC Hml Rm Pm D1 D2 Hf.
    assert (Al0 : forall p, aligned cf p 8 = true).
    { intros q. specialize (Hal q 0%nat). cbn in Hal. now rewrite padd_0 in Hal. }
    unfold finish. apply runs_if. unfold RefIsap.ISAP_TAG_SZ. destruct ok.
    - replace (n =? 16) with true by (symmetry; now apply N.eqb_eq, En).
      eapply runs_bind; [apply (runs_load_ull cf mlen (N.of_nat (length C))); auto; lia|].
      pose proof (v_enc_length A128A K Nn C LK LN BK BN) as Le. change (v_inst A128A) with IA in *.
      eapply runs_bind; [|eapply runs_eq; [apply runs_ret|reflexivity|reflexivity]].
      assert (Hcal : forall i, (i < 4)%nat -> al8 cf (P i 0)) by auto.
      apply runs_if_skip.
      + intros Epos. eapply runs_bind; [apply (runs_load_ull cf mlen (N.of_nat (length C))); auto; lia|].
        apply (opt_enc_ok f a rs cf Ha Hr12 Hr1 Hr6 Hcal junk Hj) with (K := K) (Nn := Nn) (T := C); auto.
        * intros b Hb. exact Logic.I.
        * split; auto.
        * split; auto.
        * split; auto.
        * lia.
      + intros Ez. assert (length C = 0)%nat by lia. destruct (Spec.isap_enc IA K Nn C); [now rewrite putp_nil|]. cbn [length] in Le. lia.
    - replace (n =? 16) with false; [apply runs_ret|]. symmetry. apply N.eqb_neq. intros E2. apply En in E2. discriminate.
  Qed.

  Lemma has_front mm c C tg : has mm c (C ++ tg) -> has mm c C.
  Proof.
    intros HY. replace C with (firstn (length C) (C ++ tg)); [now apply has_firstn|].
    rewrite firstn_app, firstn_all, Nat.sub_diag, firstn_O. apply app_nil_r.
  Qed.

  (* Everything after the first half of pvp. *)
  Lemma r_rest mm m mlen c npub k K Nn C tg Tc s (ok : bool) : (ok = true <-> image tg s = image Tc s) ->
    consts_ok opt_consts mm -> bytes_at mm k K -> length K = 16%nat -> bytes_at mm npub Nn -> length Nn = 16%nat ->
    bytes_at mm c (C ++ tg) -> length tg = 16%nat -> N.of_nat (length (C ++ tg)) < 2 ^ 64 ->
    has mm mlen (word_le 8 (N.of_nat (length C))) -> bytes Tc -> length Tc = 16%nat ->
    has mm S0 (g0 s) -> has mm S1 (g1 s) -> wf40 s ->
    room mm m (length C) -> (length opt_consts <= pb m)%nat -> disj m (length C) k 16 -> disj m (length C) npub 16 -> fwd_ok m c (length C) ->
    runs (eq_cnt <- pvp_second a cf (P (length mm) 0) (u_of Tc s) ;; finish a cf junk m mlen c npub k eq_cnt) (mm ++ [map Some tg])
      (if ok then 0 else -1)%Z
      ((if ok then putp mm m (Spec.isap_enc IA K Nn C) else mm) ++ [map Some tg]).
  Proof.
    intros Eok Hc [BK Hk] LK [BN Hn] LN [BY HY] Ltg LY Hml BTc LTc H0 H1 W Rm Pm D1 D2 Hf.
    pose proof (has_front _ _ _ _ HY) as HC.
    rewrite app_length, Ltg in LY. apply bytes_app in BY. destruct BY as [BC Btg].
    set (m2 := mm ++ [map Some tg]).
    assert (C2 : consts_ok opt_consts m2) by (apply consts_app; auto using opt_consts_ne).
    assert (F2 : forall q bs, has mm q bs -> has m2 q bs) by (intros; now apply has_app).
    destruct (r_pvp_second m2 (P (length mm) 0) Tc tg s) as (n & Rn & En); auto.
    { split; auto. apply has_blk0, blk_mid. }
    eapply runs_bind; [exact Rn|].
    eapply runs_eq; [apply (r_finish m2 m mlen c npub k K Nn C n ok)|reflexivity|]; auto.
    - rewrite En. symmetry. exact Eok.
    - split; auto.
    - split; auto.
    - split; auto.
    - lia.
    - now apply room_app.
    - destruct ok; auto. unfold m2. apply putp_app.
      pose proof (v_enc_length A128A K Nn C LK LN BK BN) as Le. change (v_inst A128A) with IA in *. now rewrite Le.
  Qed.

  Lemma r_tag_block m1 k npub ad c mlen K Nn A C : consts_ok opt_consts m1 -> room m1 S0 8 -> room m1 S1 8 ->
    bytes_at m1 k K -> length K = 16%nat -> bytes_at m1 npub Nn -> length Nn = 16%nat -> bytes_at m1 ad A -> bytes_at m1 c C ->
    N.of_nat (length A) < 2 ^ 64 -> N.of_nat (length C) < 2 ^ 64 -> disj S0 8 k 16 -> disj S1 8 k 16 ->
    has m1 mlen (word_le 8 (N.of_nat (length C))) ->
    runs (ml <- RefIsap.load_ull cf mlen ;; OptStp.isap_mac a cf k npub ad (N.of_nat (length A)) c ml (P (length m1) 0)) (m1 ++ [uninit 16]) tt
      (put_globals m1 (mac_st Nn A C) ++ [map Some (Spec.isap_mac IA K Nn A C)]).
  Proof.
    intros Hc R0 R1 [BK Hk] LK [BN Hn] LN [BA HA] [BC HC] La Lc D0 D1 Hml.
    assert (Al0 : forall p, aligned cf p 8 = true).
    { intros q. specialize (Hal q 0%nat). cbn in Hal. now rewrite padd_0 in Hal. }
    eapply runs_bind; [apply (runs_load_ull cf mlen (N.of_nat (length C))); auto; now apply has_app|].
    pose proof (v_mac A128A K Nn A C LK LN BK BN BA BC) as [BT LT]. change (v_inst A128A) with IA in *.
    eapply runs_eq; [apply r_stp_mac with (K := K) (Nn := Nn) (A := A) (C := C)|reflexivity|]; auto.
    - apply consts_app; auto using opt_consts_ne.
    - now apply room_app.
    - now apply room_app.
    - split; auto. now apply has_app.
    - split; auto. now apply has_app.
    - split; auto. now apply has_app.
    - split; auto. now apply has_app.
    - apply room_of_le. cbn [pb po]. rewrite blk_mid, uninit_length. lia.
    - set (s := mac_st Nn A C). set (T := Spec.isap_mac IA K Nn A C) in *.
      assert (E : put_globals (m1 ++ [uninit 16]) s = put_globals m1 s ++ [uninit 16]).
      { unfold put_globals. rewrite !putp_app; auto. apply room_putp; auto. }
      rewrite E. clear E. set (mg := put_globals m1 s).
      assert (Lm : length mg = length m1) by (unfold mg, put_globals; now rewrite !putp_length).
      rewrite <- Lm. unfold putp, put. cbn [pb po]. rewrite blk_mid, upd_mid. change (N.to_nat 0) with 0%nat.
      rewrite splice_all; [reflexivity|]. now rewrite map_length, uninit_length, LT.
  Qed.

  Definition dec_mem (b : bool) (mm : mem) (m mlen : ptr) (K Nn A Y : list N) : mem :=
    let n := (length Y - 16)%nat in
    let m2 := put_globals (putp mm mlen (word_le 8 (N.of_nat (length Y) - 16))) (mac_st Nn A (firstn n Y)) in
    if b then putp m2 m (Spec.isap_enc IA K Nn (firstn n Y)) else m2.
  Definition dec_ret (b : bool) : Z := if b then 0%Z else (-1)%Z.

  Definition dec_apart (mm : mem) (m mlen c ad npub k : ptr) (A Y : list N) : Prop :=
    apart mm S0 S1 [(k, 16); (npub, 16); (ad, length A); (c, length Y); (m, length Y - 16); (mlen, 8)]%nat.

  (* From the end of isap_mac on: everything known about the memory mg. *)
  Lemma after_mac (mg : mem) m mlen c ad npub k K Nn A Y mm :
    dec_valid cf opt_consts mm m mlen c ad npub k K Nn A Y -> dec_apart mm m mlen c ad npub k A Y ->
    mg = put_globals (putp mm mlen (word_le 8 (N.of_nat (length Y) - 16))) (mac_st Nn A (firstn (length Y - 16) Y)) ->
    let C := firstn (length Y - 16) Y in let tg := skipn (length Y - 16) Y in let s := mac_st Nn A C in
    (consts_ok opt_consts mg /\ bytes_at mg k K /\ length K = 16%nat /\ bytes_at mg npub Nn /\ length Nn = 16%nat) /\
    (bytes_at mg c (C ++ tg) /\ length tg = 16%nat /\ N.of_nat (length (C ++ tg)) < 2 ^ 64 /\
     has mg mlen (word_le 8 (N.of_nat (length C))) /\ bytes (Spec.isap_mac IA K Nn A C) /\ length (Spec.isap_mac IA K Nn A C) = 16%nat) /\
    (has mg S0 (g0 s) /\ has mg S1 (g1 s) /\ wf40 s /\ room mg m (length C) /\ (length opt_consts <= pb m)%nat /\
     disj m (length C) k 16 /\ disj m (length C) npub 16 /\ fwd_ok m c (length C)).
  Proof.
    intros V Hap ->. cbv zeta.
    destruct Hap as (R0 & R1 & Hap).
    destruct V as [Vc [[Bk Hk] Lk] [[Bn Hn] Ln] [[Ba Had] La] [[By Hy] [Ly Gy]] [Rm Pm] [Rl [Pl Al]]
      (D1 & D2 & D3 & D4 & D5) (D6 & D7 & D8) Hf].
    rewrite !Forall_cons_iff in Hap. cbn [fst snd] in Hap.
    destruct Hap as ((Ek & Ek') & (En & En') & (Ea & Ea') & (Ec & Ec') & (Em & Em') & (El & El') & _).
    set (n := (length Y - 16)%nat) in *. replace (N.of_nat (length Y) - 16) with (N.of_nat n) by lia.
    set (C := firstn n Y) in *. set (tg := skipn n Y) in *. set (s := mac_st Nn A C) in *.
    assert (LC : length C = n) by (unfold C; rewrite firstn_length; lia).
    assert (Ltg : length tg = 16%nat) by (unfold tg; rewrite skipn_length; lia).
    assert (BC : bytes C) by now apply bytes_firstn.
    assert (EY : Y = C ++ tg) by (symmetry; apply firstn_skipn).
    set (m1 := putp mm mlen (word_le 8 (N.of_nat n))).
    assert (Hl8 : room mm mlen (length (word_le 8 (N.of_nat n)))) by now rewrite word_le_length.
    assert (F1 : forall q bs, has mm q bs -> disj mlen 8 q (length bs) -> has m1 q bs).
    { intros q bs H1 H2. apply has_putp_disj; rewrite ?word_le_length; auto. }
    assert (Q1 : forall q j, room mm q j -> room m1 q j) by (intros; now apply room_putp).
    destruct (globals_has m1 s (Q1 _ _ R0) (Q1 _ _ R1)) as (G0 & G1 & Q2 & F2 & C2 & L2).
    assert (C1 : consts_ok opt_consts m1) by now apply consts_putp.
    pose proof (v_mac A128A K Nn A C Lk Ln Bk Bn Ba BC) as [BT LT]. change (v_inst A128A) with IA in *.
    set (T := Spec.isap_mac IA K Nn A C) in *. set (mg := put_globals m1 s) in *.
    split; [|split].
    - split; [now apply C2|]. split; [split; auto; apply F2; rewrite ?Lk; auto; apply F1; rewrite ?Lk; auto|]. split; [exact Lk|].
      split; [split; auto; apply F2; rewrite ?Ln; auto; apply F1; rewrite ?Ln; auto|exact Ln].
    - rewrite <- EY. split; [split; auto; apply F2; auto|]. split; [exact Ltg|]. split; [exact Ly|].
      split; [|split; [exact BT|exact LT]]. rewrite LC. apply F2; rewrite ?word_le_length; auto. now apply has_putp_same.
    - split; [exact G0|]. split; [exact G1|]. split; [now apply wf_mac_st|]. rewrite LC.
      split; [apply Q2, Q1, Rm|]. split; [exact Pm|]. split; [exact D6|]. split; [exact D7|exact Hf].
  Qed.

  (* The second half, run in a memory that has the inputs and the globals as the first one left them. *)
  Lemma r_second (mg : mem) m mlen c ad npub k K Nn A Y x mm r : (r = true <-> accepts K Nn A Y) ->
    dec_valid cf opt_consts mm m mlen c ad npub k K Nn A Y -> dec_apart mm m mlen c ad npub k A Y ->
    mg = put_globals (putp mm mlen (word_le 8 (N.of_nat (length Y) - 16))) (mac_st Nn A (firstn (length Y - 16) Y)) ->
    x = Spec.isap_mac IA K Nn A (firstn (length Y - 16) Y) ->
    exists b, runs (compare_and_decrypt a cf junk m mlen c npub k (P (length mg) 0)) (mg ++ [map Some x])
      (dec_ret r) (dec_mem r mm m mlen K Nn A Y ++ [b]).
  Proof.
    intros Er V Hap Emg Ex. exists (map Some x).
    destruct (after_mac mg m mlen c ad npub k K Nn A Y mm V Hap Emg) as
      ((Hc & Hk & Lk & Hn & Ln) & (HY & Ltg & LY & Hml & BT & LT) & (H0 & H1 & W & Rm & Pm & D1 & D2 & Hf)).
    unfold accepts in Er. cbv zeta in Er. unfold dec_ret, dec_mem. cbv zeta. rewrite <- Emg. rewrite <- Ex in *. clear Emg Ex.
    set (C := firstn (length Y - 16) Y) in *. set (tg := skipn (length Y - 16) Y) in *. set (s := mac_st Nn A C) in *.
    set (mx := mg ++ [map Some x]).
    assert (Hcx : consts_ok opt_consts mx) by (apply consts_app; auto using opt_consts_ne).
    assert (F : forall q bs, bytes_at mg q bs -> bytes_at mx q bs) by (intros q bs [B H]; split; auto; now apply has_app).
    unfold compare_and_decrypt. apply (runs_with_block _ _ _ _ _ (map Some tg)).
    eapply runs_bind; [apply (r_copy mx mlen c C tg); auto; now apply has_app|].
    assert (R1 : runs (pvp_first a cf (P (length mg) 0)) (mx ++ [map Some tg]) (u_of x s) (mx ++ [map Some tg])).
    { apply r_pvp_first; auto.
      - split; auto. apply has_app, has_blk0, blk_mid.
      - now apply has_app, has_app.
      - now apply has_app, has_app. }
    assert (R2 : runs (eq_cnt <- pvp_second a cf (P (length mx) 0) (u_of x s) ;; finish a cf junk m mlen c npub k eq_cnt) (mx ++ [map Some tg])
      (if r then 0 else -1)%Z ((if r then putp mx m (Spec.isap_enc IA K Nn C) else mx) ++ [map Some tg])).
    { apply (r_rest mx m mlen c npub k K Nn C tg x s r); auto; try (now apply has_app). now apply room_app. }
    assert (E : (if r then putp mx m (Spec.isap_enc IA K Nn C) else mx) =
                (if r then putp mg m (Spec.isap_enc IA K Nn C) else mg) ++ [map Some x]).
    { destruct r; auto. apply putp_app. pose proof (v_enc_length A128A K Nn C Lk Ln (proj1 Hk) (proj1 Hn)) as Le.
      change (v_inst A128A) with IA in *. now rewrite Le. }
    eapply runs_eq in R2; [|reflexivity|exact (f_equal (fun q : mem => q ++ [map Some tg]) E)]. clear E. unfold pvp.
    intros t. destruct (R1 t) as (t1 & E1). destruct (R2 t1) as (t2 & E2). exists t2. unfold bind in *. rewrite E1. exact E2.
  Qed.

  Lemma r_first mm m mlen c ad npub k K Nn A Y B (g : ptr -> M B) (r : B) m' :
    dec_valid cf opt_consts mm m mlen c ad npub k K Nn A Y -> dec_apart mm m mlen c ad npub k A Y ->
    let mg := put_globals (putp mm mlen (word_le 8 (N.of_nat (length Y) - 16))) (mac_st Nn A (firstn (length Y - 16) Y)) in
    (exists b, runs (g (P (length mg) 0)) (mg ++ [map Some (Spec.isap_mac IA K Nn A (firstn (length Y - 16) Y))]) r (m' ++ [b])) ->
    runs (RefIsap.store_ull cf mlen (sub64 (N.of_nat (length Y)) RefIsap.ISAP_TAG_SZ) ;;
          with_block 16 (fun T => ml <- RefIsap.load_ull cf mlen ;;
            OptStp.isap_mac a cf k npub ad (N.of_nat (length A)) c ml T ;; g T)) mm r m'.
  Proof.
    cbv zeta. intros V (R0 & R1 & Hap) (b & Hg).
    destruct V as [Vc [[Bk Hk] Lk] [[Bn Hn] Ln] [[Ba Had] La] [[By Hy] [Ly Gy]] [Rm Pm] [Rl [Pl Al]]
      (D1 & D2 & D3 & D4 & D5) (D6 & D7 & D8) Hf].
    rewrite !Forall_cons_iff in Hap. cbn [fst snd] in Hap.
    destruct Hap as ((Ek & Ek') & (En & En') & (Ea & Ea') & (Ec & Ec') & (Em & Em') & (El & El') & _).
    unfold RefIsap.ISAP_TAG_SZ. rewrite sub64_small by lia.
    set (n := (length Y - 16)%nat) in *. replace (N.of_nat (length Y) - 16) with (N.of_nat n) in * by lia.
    set (C := firstn n Y) in *.
    assert (LC : length C = n) by (unfold C; rewrite firstn_length; lia).
    assert (BC : bytes C) by now apply bytes_firstn.
    set (m1 := putp mm mlen (word_le 8 (N.of_nat n))) in *. set (mg := put_globals m1 _) in *.
    assert (Hl8 : room mm mlen (length (word_le 8 (N.of_nat n)))) by now rewrite word_le_length.
    assert (F1 : forall q bs, has mm q bs -> disj mlen 8 q (length bs) -> has m1 q bs).
    { intros q bs H1 H2. apply has_putp_disj; rewrite ?word_le_length; auto. }
    assert (Q1 : forall q j, room mm q j -> room m1 q j) by (intros; now apply room_putp).
    assert (C1 : consts_ok opt_consts m1) by now apply consts_putp.
    eapply runs_bind; [apply runs_store_ull; auto|]. fold m1.
    apply (runs_with_block _ _ _ _ _ b).
    assert (HYC : has m1 c C) by (apply has_firstn, F1; auto).
    assert (Rm1 := r_tag_block m1 k npub ad c mlen K Nn A C C1 (Q1 _ _ R0) (Q1 _ _ R1)
      (conj Bk (F1 k K Hk ltac:(now rewrite Lk))) Lk (conj Bn (F1 npub Nn Hn ltac:(now rewrite Ln))) Ln
      (conj Ba (F1 ad A Had D3)) (conj BC HYC) La ltac:(lia) Ek Ek' ltac:(rewrite LC; now apply has_putp_same)).
    assert (Lmg : length mg = length m1) by (unfold mg, put_globals; now rewrite !putp_length).
    rewrite Lmg in Hg. fold mg in Rm1.
    intros t. destruct (Rm1 t) as (t1 & E1). destruct (Hg t1) as (t2 & E2). exists t2. unfold bind in *.
    destruct (RefIsap.load_ull cf mlen (St (m1 ++ [uninit 16]) t)) as [v st| | |]; try discriminate.
    rewrite E1. exact E2.
  Qed.

  Lemma stp_dec mm m mlen c ad npub k K Nn A Y b : (b = true <-> accepts K Nn A Y) ->
    dec_valid cf opt_consts mm m mlen c ad npub k K Nn A Y -> dec_apart mm m mlen c ad npub k A Y ->
    runs (a_dec (stp_impl a cf junk) m mlen c (N.of_nat (length Y)) ad (N.of_nat (length A)) npub k) mm
      (dec_ret b) (dec_mem b mm m mlen K Nn A Y).
  Proof.
    intros Eb V Hap. cbn [stp_impl a_dec]. unfold crypto_aead_decrypt.
    apply (r_first mm m mlen c ad npub k K Nn A Y _ (compare_and_decrypt a cf junk m mlen c npub k)); auto. cbv zeta.
    apply (r_second _ m mlen c ad npub k K Nn A Y _ mm); auto.
  Qed.

  (* A thread whose steps are not interrupted does what the call does. *)
  Lemma thread_alone mm m mlen c ad npub k K Nn A Y b u : (b = true <-> accepts K Nn A Y) ->
    dec_valid cf opt_consts mm m mlen c ad npub k K Nn A Y -> dec_apart mm m mlen c ad npub k A Y ->
    runs (schedule [true; true] (decrypt_thread a cf junk m mlen c (N.of_nat (length Y)) ad (N.of_nat (length A)) npub k) u) mm
      (Done (dec_ret b), u) (dec_mem b mm m mlen K Nn A Y).
  Proof.
    intros Eb V Hap. cbn [schedule step1 decrypt_thread].
    set (x := Spec.isap_mac IA K Nn A (firstn (length Y - 16) Y)).
    set (mg := put_globals (putp mm mlen (word_le 8 (N.of_nat (length Y) - 16))) (mac_st Nn A (firstn (length Y - 16) Y))).
    destruct (after_mac mg m mlen c ad npub k K Nn A Y mm V Hap eq_refl) as
      ((Hc & Hk & Lk & Hn & Ln) & (HY & Ltg & LY & Hml & Bx & Lx) & (H0 & H1 & W & Rm & Pm & D1 & D2 & Hf)).
    set (C := firstn (length Y - 16) Y) in *. set (tg := skipn (length Y - 16) Y) in *. set (s := mac_st Nn A C) in *. fold x in Bx, Lx.
    eapply runs_bind; [eapply runs_bind; [|apply runs_ret]|].
    - unfold decrypt_first. apply (r_first mm m mlen c ad npub k K Nn A Y _ (fun T => with_block 16 (fun T_star =>
        copy_tag cf mlen c T_star ;; u <- pvp_first a cf T ;; t_star <- loads_ 16 T_star ;; ret (u, t_star)))
        (u_of x s, tg) mg); auto.
      exists (map Some x). fold x. fold mg.
      set (mx := mg ++ [map Some x]). apply (runs_with_block _ _ _ _ _ (map Some tg)).
      eapply runs_bind; [apply (r_copy mx mlen c C tg); auto; [split; [apply HY|apply has_app, HY]|now apply has_app]|].
      eapply runs_bind; [apply (r_pvp_first _ _ x s); auto|].
      + split; auto. apply has_app, has_blk0, blk_mid.
      + now apply has_app, has_app.
      + now apply has_app, has_app.
      + eapply runs_bind; [|apply runs_ret].
        assert (HT : has (mx ++ [map Some tg]) (P (length mx) 0) tg) by apply has_blk0, blk_mid.
        pose proof (runs_loads_ tg _ _ HT) as Lo. rewrite Ltg in Lo. exact Lo.
    - cbv beta. cbn [step1]. eapply runs_bind; [eapply runs_bind; [|apply runs_ret]|apply runs_ret].
      unfold decrypt_second. cbn [fst snd].
      apply (runs_with_block _ _ _ _ _ (map Some tg)). eapply runs_bind; [apply runs_stores_|].
      + apply room_of_le. cbn [pb po]. rewrite blk_mid, uninit_length, Ltg. lia.
      + assert (E : putp (mg ++ [uninit 16]) (P (length mg) 0) tg = mg ++ [map Some tg]).
        { unfold putp, put. cbn [pb po]. rewrite blk_mid, upd_mid. change (N.to_nat 0) with 0%nat.
          rewrite splice_all; [reflexivity|]. now rewrite map_length, uninit_length, Ltg. }
        rewrite E. unfold accepts in Eb. cbv zeta in Eb.
        exact (r_rest mg m mlen c npub k K Nn C tg x s b Eb Hc Hk Lk Hn Ln HY Ltg LY Hml Bx Lx H0 H1 W Rm Pm D1 D2 Hf).
  Qed.
End StpProof.
