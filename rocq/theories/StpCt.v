(* Traces of the STP implementations. Proofs only, apart from auxiliary notions. *)
From Verif Require Import Base Prog Poly SpecPerm Words AsconProof Mem Vocab Vocab2 MemProof RefLib Sponge RefProof RefAead SpecFacts.
From Verif Require Import Api ApiProof OptPerm OptRep OptPermProof OptIsap OptLanes OptProof OptImpl OptEx OptStp StpProof StpEx.
From Verif Require Import Trace Ct OptCt ApiCt A128Impl TableCt ExLib ExTrace.
From Verif Require Spec RefIsap ApiCode.
Open Scope N_scope.
Open Scope cm_scope.

(* A loop that changes the memory. *)
Lemma pt_for_nat_mem {A} (I J : nat -> A) (mf nf : nat -> mem) (F G : N -> A -> M A) k : forall i j,
  (forall x, (j <= x < j + k)%nat ->
     pt [] (F (i + N.of_nat (x - j)) (I x)) (mf x) (I (S x)) (mf (S x)) (G (i + N.of_nat (x - j)) (J x)) (nf x) (J (S x)) (nf (S x))) ->
  pt [] (for_nat k i F (I j)) (mf j) (I (j + k)%nat) (mf (j + k)%nat) (for_nat k i G (J j)) (nf j) (J (j + k)%nat) (nf (j + k)%nat).
Proof.
  induction k as [|k IH]; intros i j H; cbn [for_nat].
  - rewrite Nat.add_0_r. change (@nil N) with (@nil N ++ []). eapply pt_bind; [apply pt_branch|]. apply pt_ret.
  - change (@nil N) with (@nil N ++ []). eapply pt_bind; [apply pt_branch|].
    change (@nil N) with (@nil N ++ []). eapply pt_bind.
    { specialize (H j ltac:(lia)). rewrite Nat.sub_diag in H. change (N.of_nat 0) with 0 in H. rewrite N.add_0_r in H. exact H. }
    replace (j + S k)%nat with (S j + k)%nat by lia. apply IH. intros x Hx. specialize (H x ltac:(lia)).
    now replace (i + 1 + N.of_nat (x - S j)) with (i + N.of_nat (x - j)) by lia.
Qed.
Lemma pt_for_mem {A} (I J : nat -> A) (mf nf : nat -> mem) (F G : N -> A -> M A) k y a b m0 n0 mk nk :
  y = N.of_nat k -> a = I 0%nat -> b = J 0%nat -> m0 = mf 0%nat -> n0 = nf 0%nat -> mk = mf k -> nk = nf k ->
  (forall x, (x < k)%nat -> pt [] (F (N.of_nat x) (I x)) (mf x) (I (S x)) (mf (S x)) (G (N.of_nat x) (J x)) (nf x) (J (S x)) (nf (S x))) ->
  pt [] (for_ 0 y F a) m0 (I k) mk (for_ 0 y G b) n0 (J k) nk.
Proof.
  intros -> -> -> -> -> -> -> H. unfold for_. replace (N.to_nat (N.of_nat k - 0)) with k by lia.
  apply (pt_for_nat_mem I J mf nf F G k 0 0). intros x Hx. rewrite Nat.sub_0_r, N.add_0_l. apply H. lia.
Qed.

(* Two runs that agree up to a decision on the result: ps are the permutation calls before it, qs those after it if the result is 0. *)
Definition vt (ps qs : list N) (f : M Z) (m : mem) (g : M Z) (n : mem) : Prop :=
  forall t, exists r s r' s' t0 u u',
    f (St m t) = Ok r s /\ g (St n t) = Ok r' s' /\
    strc s = u ++ EBr (r =? 0)%Z :: t0 /\ strc s' = u' ++ EBr (r' =? 0)%Z :: t0 /\
    (r <> 0%Z -> u = []) /\ (r' <> 0%Z -> u' = []) /\ (r = r' -> u = u') /\
    perms t0 = perms t ++ ps /\ (r = 0%Z -> perms u = qs).
Lemma vt_bind {A} ps ps' qs (f g : M A) (f' g' : A -> M Z) m a m1 n b n1 :
  pt ps f m a m1 g n b n1 -> vt ps' qs (f' a) m1 (g' b) n1 -> vt (ps ++ ps') qs (bind f f') m (bind g g') n.
Proof.
  intros H1 H2 t. destruct (H1 t) as (w & E1 & E2 & Pw).
  destruct (H2 (w ++ t)) as (r & s & r' & s' & t0 & u & u' & F1 & F2 & S1 & S2 & U1 & U2 & U3 & P0 & Pu).
  exists r, s, r', s', t0, u, u'. unfold bind. rewrite E1, E2. do 7 (split; [assumption|]). split; [|exact Pu].
  now rewrite P0, perms_app, Pw, app_assoc.
Qed.
Lemma vt_bind0 {A} ps' qs (f g : M A) (f' g' : A -> M Z) m a m1 n b n1 :
  pt [] f m a m1 g n b n1 -> vt ps' qs (f' a) m1 (g' b) n1 -> vt ps' qs (bind f f') m (bind g g') n.
Proof. exact (vt_bind [] ps' qs f g f' g' m a m1 n b n1). Qed.
Lemma vt_with_block ps qs (k : nat) (f g : ptr -> M Z) m n : length m = length n ->
  vt ps qs (f (P (length m) 0)) (m ++ [uninit k]) (g (P (length m) 0)) (n ++ [uninit k]) ->
  vt ps qs (with_block k f) m (with_block k g) n.
Proof.
  intros L H t. destruct (H t) as (r & s & r' & s' & t0 & u & u' & F1 & F2 & S1 & S2 & U).
  exists r, (St (removelast (smem s)) (strc s)), r', (St (removelast (smem s')) (strc s')), t0, u, u'.
  unfold with_block. cbn [smem strc]. rewrite <- L, F1, F2. auto.
Qed.

Section StpCt.
  Variables (f : nat -> nat) (a : asconp) (rs : list nat) (cf : cfg).
  Hypothesis Ha : ap_ok f a rs.
  Hypothesis Hr12 : In 12%nat rs.
  Hypothesis Hr1 : In 1%nat rs.
  Hypothesis Hr6 : In 6%nat rs.
  Hypothesis Hr7 : In 7%nat rs.
  Hypothesis Hal : forall p, al8 cf p.
  Variable junk : state.
  Hypothesis Hj : length junk = 5%nat.
  Notation I := (v_inst A128A).

  Lemma ct_stp_mac k npub ad (x : nat) c (n : nat) tag : N.of_nat x < 2 ^ 64 -> N.of_nat n < 2 ^ 64 ->
    ct (calls_mac I x n) any
       (OptStp.isap_mac a cf k npub ad (N.of_nat x) c (N.of_nat n) tag) (OptStp.isap_mac a cf k npub ad (N.of_nat x) c (N.of_nat n) tag).
  Proof.
    intros Hx Hn. rewrite calls_A128A_mac. eapply ct_bind; [now apply ct_mac_state|]. intros z z' _.
    eapply ct_bind0; [apply ct_store_ull|]. intros ? ? _. eapply ct_bind0; [apply ct_store_ull|]. intros ? ? _. apply ct_mac_tag.
  Qed.
  Lemma ct_stp_enc k npub m (n : nat) c : N.of_nat n < 2 ^ 64 -> (0 < n)%nat ->
    ct (calls_enc I n) any (OptIsap.isap_enc a cf junk k npub m (N.of_nat n) c) (OptIsap.isap_enc a cf junk k npub m (N.of_nat n) c).
  Proof. intros Hn H0. rewrite calls_A128A_enc by exact H0. now apply OptCt.ct_isap_enc. Qed.
  Lemma ct_pvp_state T : ct [7] any (pvp_state a cf T) (pvp_state a cf T).
  Proof.
    unfold pvp_state. do 2 (eapply ct_bind0; [apply ct_load_word|]; intros ? ? _).
    do 2 (eapply ct_bind0; [apply ct_load_ull|]; intros ? ? _). apply ct_perm.
  Qed.
  Lemma ct_count x y e x' y' e' : ct [] any (count_eq x y e) (count_eq x' y' e').
  Proof. unfold count_eq. apply ct_for_silent; [|exact Logic.I]. intros. now apply ct_ret. Qed.
  Lemma ct_pvp_first T : ct [7] any (pvp_first a cf T) (pvp_first a cf T).
  Proof. unfold pvp_first. eapply (ct_bind [7] []); [apply ct_pvp_state|]. intros. now apply ct_ret. Qed.
  Lemma ct_pvp_second T u u' : ct [7] any (pvp_second a cf T u) (pvp_second a cf T u').
  Proof.
    unfold pvp_second. eapply (ct_bind [7] []); [apply ct_pvp_state|]. intros s s' _.
    eapply ct_bind0; [apply ct_count|]. intros. apply ct_count.
  Qed.

  Lemma al0 p : aligned cf p 8 = true.
  Proof. specialize (Hal p 0%nat). cbn in Hal. now rewrite padd_0 in Hal. Qed.

  (* Copying the received tag. *)
  Lemma copy_run mm mlen c C tg j : has mm c (C ++ tg) -> length tg = 16%nat -> N.of_nat (length (C ++ tg)) < 2 ^ 64 ->
    has mm mlen (word_le 8 (N.of_nat (length C))) -> (j < 16)%nat ->
    let Ts := P (length mm) 0 in let mj := putp (mm ++ [uninit 16]) Ts (firstn j tg) in
    runs (RefIsap.load_ull cf mlen) mj (N.of_nat (length C)) mj /\
    runs (load (padd c (u64 (N.of_nat (length C) + N.of_nat j)))) mj (nth j tg 0) mj /\
    runs (store (padd Ts (N.of_nat j)) (nth j tg 0)) mj tt (putp (mm ++ [uninit 16]) Ts (firstn (S j) tg)).
  Proof.
    intros HY Ltg LY Hml Hjj Ts mj. rewrite app_length, Ltg in LY.
    assert (Htg : has mm (padd c (N.of_nat (length C))) tg).
    { replace tg with (skipn (length C) (C ++ tg)); [now apply has_skipn|]. rewrite skipn_app, skipn_all, Nat.sub_diag. reflexivity. }
    set (mu := mm ++ [uninit 16]) in *.
    assert (RTs : room mu Ts 16) by (apply room_of_le; unfold mu, Ts; cbn [pb po]; rewrite blk_mid, uninit_length; lia).
    assert (Lf : length (firstn j tg) = j) by (rewrite firstn_length; lia).
    assert (Rj : room mu Ts (length (firstn j tg))) by (intros i Hi; apply RTs; lia).
    assert (Dq : forall q bs, has mm q bs -> has mj q bs).
    { intros q bs H. apply has_putp_disj; auto; [now apply has_app|].
      destruct bs as [|b0 bs]; [intros x y Hx Hy; cbn [length] in Hy; lia|].
      apply disj_blocks. unfold Ts. cbn [pb]. apply Nat.neq_sym, Nat.lt_neq, (has_pb mm q (b0 :: bs)); auto. discriminate. }
    split; [apply (runs_load_ull cf mlen (N.of_nat (length C))); auto using al0; lia|]. split.
    - rewrite u64_small by lia. rewrite <- padd_padd. apply runs_load, (Dq _ _ Htg). lia.
    - eapply runs_eq; [apply runs_store1|reflexivity|].
      + unfold mj. rewrite inside_putp by auto. apply RTs. lia.
      + unfold mj. rewrite <- Lf at 2. rewrite putp_app_bytes.
        * f_equal. symmetry. apply firstn_snoc. lia.
        * rewrite app_length, Lf. cbn [length]. intros i Hi. apply RTs. lia.
  Qed.
  Lemma copy_end (mm : mem) tg : length tg = 16%nat -> putp (mm ++ [uninit 16]) (P (length mm) 0) (firstn 16 tg) = mm ++ [map Some tg].
  Proof.
    intros Ltg. rewrite firstn_all2 by lia. unfold putp, put. cbn [pb po].
    rewrite blk_mid, upd_mid. change (N.to_nat 0) with 0%nat. rewrite splice_all; [reflexivity|]. now rewrite map_length, uninit_length, Ltg.
  Qed.
  Lemma copy_layout (mm mm' : mem) tg tg' j : layout mm mm' -> length tg = 16%nat -> length tg' = 16%nat ->
    layout (putp (mm ++ [uninit 16]) (P (length mm) 0) (firstn j tg)) (putp (mm' ++ [uninit 16]) (P (length mm) 0) (firstn j tg')).
  Proof.
    intros Hl H1 H2. unfold putp, put. cbn [pb po]. change (N.to_nat 0) with 0%nat. rewrite blk_mid, upd_mid.
    rewrite (layout_length _ _ Hl), blk_mid, upd_mid. apply layout_app; auto.
    rewrite !splice_length; rewrite ?map_length, ?firstn_length, ?uninit_length; lia.
  Qed.
  Lemma copy_pt mm mm' mlen c C tg C' tg' : layout mm mm' ->
    has mm c (C ++ tg) -> length tg = 16%nat -> N.of_nat (length (C ++ tg)) < 2 ^ 64 -> has mm mlen (word_le 8 (N.of_nat (length C))) ->
    has mm' c (C' ++ tg') -> length tg' = 16%nat -> has mm' mlen (word_le 8 (N.of_nat (length C'))) -> length C = length C' ->
    pt [] (copy_tag cf mlen c (P (length mm) 0)) (mm ++ [uninit 16]) tt (mm ++ [map Some tg])
          (copy_tag cf mlen c (P (length mm) 0)) (mm' ++ [uninit 16]) tt (mm' ++ [map Some tg']).
  Proof.
    intros Hlay H1 L1 G1 M1 H2 L2 M2 EC. unfold copy_tag.
    assert (G2 : N.of_nat (length (C' ++ tg')) < 2 ^ 64) by (rewrite app_length in *; lia).
    pose proof (layout_length _ _ Hlay) as El.
    apply (pt_for_mem (fun _ => tt) (fun _ => tt) (fun j => putp (mm ++ [uninit 16]) (P (length mm) 0) (firstn j tg))
      (fun j => putp (mm' ++ [uninit 16]) (P (length mm) 0) (firstn j tg')) _ _ 16); auto.
    - rewrite firstn_O. symmetry. apply putp_nil.
    - rewrite firstn_O. symmetry. apply putp_nil.
    - symmetry. now apply copy_end.
    - rewrite El. symmetry. now apply copy_end.
    - intros j Hjj. destruct (copy_run mm mlen c C tg j H1 L1 G1 M1 Hjj) as (A1 & A2 & A3).
      destruct (copy_run mm' mlen c C' tg' j H2 L2 G2 M2 Hjj) as (B1 & B2 & B3). cbv zeta in *. rewrite <- El, <- EC in *.
      assert (Ly : layout (putp (mm ++ [uninit 16]) (P (length mm) 0) (firstn j tg)) (putp (mm' ++ [uninit 16]) (P (length mm) 0) (firstn j tg'))).
      { apply copy_layout; auto. }
      change (@nil N) with (@nil N ++ []). eapply pt_bind; [exact (pt_ct [] any _ _ _ _ _ _ _ _ Ly A1 B1 (ct_load_ull cf mlen))|].
      change (@nil N) with (@nil N ++ []). eapply pt_bind; [exact (pt_ct [] any _ _ _ _ _ _ _ _ Ly A2 B2 (ct_load _))|].
      exact (pt_ct [] eq _ _ _ _ _ _ _ _ Ly A3 B3 (ct_store _ _ _)).
  Qed.

  (* What is known of one run, state by state. *)
  Lemma stp_states mm m mlen c ad npub k K Nn A Y :
    dec_valid cf opt_consts mm m mlen c ad npub k K Nn A Y -> dec_apart mm m mlen c ad npub k A Y ->
    let n := (length Y - 16)%nat in let C := firstn n Y in let tg := skipn n Y in
    let m1 := putp mm mlen (word_le 8 (N.of_nat n)) in
    exists (mg : mem) (x : list N) u e,
      runs (RefIsap.store_ull cf mlen (N.of_nat n)) mm tt m1 /\ has m1 mlen (word_le 8 (N.of_nat n)) /\ length mg = length m1 /\
      runs (OptStp.isap_mac a cf k npub ad (N.of_nat (length A)) c (N.of_nat n) (P (length m1) 0)) (m1 ++ [uninit 16]) tt (mg ++ [map Some x]) /\
      (has mg c (C ++ tg) /\ length C = n /\ length tg = 16%nat /\ N.of_nat (length (C ++ tg)) < 2 ^ 64 /\ has mg mlen (word_le 8 (N.of_nat n))) /\
      (let m2 := (mg ++ [map Some x]) ++ [map Some tg] in
       runs (pvp_first a cf (P (length m1) 0)) m2 u m2 /\
      runs (pvp_second a cf (P (S (length m1)) 0) u) m2 e m2 /\
      (0 < n -> exists m3, runs (OptIsap.isap_enc a cf junk k npub c (N.of_nat n) m) m2 tt m3)%nat).
  Proof.
    cbv zeta. intros V Hap0. pose proof Hap0 as (R0 & R1 & Hap).
    pose proof V as [Vc [[Bk Hk] Lk] [[Bn Hn] Ln] [[Ba Had] La] [[By Hy] [Ly Gy]] [Rm Pm] [Rl [Pl Al]]
      (D1 & D2 & D3 & D4 & D5) (D6 & D7 & D8) Hf].
    rewrite !Forall_cons_iff in Hap. cbn [fst snd] in Hap.
    destruct Hap as ((Ek & Ek') & (En & En') & (Ea & Ea') & (Ec & Ec') & (Em & Em') & (El & El') & _).
    set (mg := put_globals f (putp mm mlen (word_le 8 (N.of_nat (length Y) - 16))) (mac_st Nn A (firstn (length Y - 16) Y))).
    destruct (after_mac f cf Hal junk Hj mg m mlen c ad npub k K Nn A Y mm V Hap0 eq_refl) as
      ((Gc & Gk & _ & Gn & _) & (HY & Ltg & LY & Gml & BT & LT) & (H0 & H1 & W & GRm & _ & GD1 & GD2 & Gf)).
    set (n := (length Y - 16)%nat) in *. replace (N.of_nat (length Y) - 16) with (N.of_nat n) in * by lia.
    set (C := firstn n Y) in *. set (tg := skipn n Y) in *.
    assert (LC : length C = n) by (unfold C; rewrite firstn_length; lia).
    assert (BC : bytes C) by now apply bytes_firstn.
    set (m1 := putp mm mlen (word_le 8 (N.of_nat n))) in *.
    assert (Hl8 : room mm mlen (length (word_le 8 (N.of_nat n)))) by now rewrite word_le_length.
    assert (F1 : forall q bs, has mm q bs -> disj mlen 8 q (length bs) -> has m1 q bs).
    { intros q bs Q1 Q2. apply has_putp_disj; rewrite ?word_le_length; auto. }
    assert (Q1 : forall q j, room mm q j -> room m1 q j) by (intros; now apply room_putp).
    assert (C1 : consts_ok opt_consts m1) by now apply consts_putp.
    assert (HYC : has m1 c C) by (apply has_firstn, F1; auto).
    assert (Hml : has m1 mlen (word_le 8 (N.of_nat n))) by now apply has_putp_same.
    assert (Lmg : length mg = length m1) by (unfold mg, m1, put_globals; rewrite !putp_length; reflexivity).
    set (x := Spec.isap_mac Spec.ISAP_A_128A K Nn A C) in *. set (s := mac_st Nn A C) in *.
    assert (Emg : mg = put_globals f m1 s).
    { unfold mg, m1, s, C. fold n. replace (N.of_nat (length Y) - 16) with (N.of_nat n) by lia. reflexivity. }
    clearbody mg.
    assert (Gen : forall q bs, bytes_at mg q bs -> bytes_at ((mg ++ [map Some x]) ++ [map Some tg]) q bs).
    { intros q bs [B H]. split; auto. now apply has_app, has_app. }
    assert (Bt : bytes tg) by now apply bytes_skipn.
    destruct (r_pvp_second f a rs cf Ha Hr7 Hal ((mg ++ [map Some x]) ++ [map Some tg]) (P (S (length m1)) 0) x tg s)
      as (e & Re & _); auto.
    { split; auto. replace (S (length m1)) with (length (mg ++ [map Some x])) by (rewrite app_length, Lmg; cbn [length]; lia). apply has_blk0, blk_mid. }
    { now apply has_app, has_app. }
    { now apply has_app, has_app. }
    exists mg, x, (u_of f x s), e.
    split; [apply runs_store_ull; auto|]. split; [exact Hml|]. split; [exact Lmg|]. split; [|split].
    - (* isap_mac *)
      rewrite <- LC at 1.
      eapply runs_eq; [apply (r_stp_mac f a rs cf Ha Hr12 Hr1 Hal) with (K := K) (Nn := Nn) (A := A) (C := C)|reflexivity|]; auto.
      + apply consts_app; auto using opt_consts_ne.
      + apply room_app; auto.
      + apply room_app; auto.
      + split; auto. apply has_app, F1; auto. now rewrite Lk.
      + split; auto. apply has_app, F1; auto. now rewrite Ln.
      + split; auto. apply has_app, F1; auto.
      + split; auto. now apply has_app.
      + lia.
      + apply room_of_le. cbn [pb po]. rewrite blk_mid, uninit_length. lia.
      + assert (E : put_globals f (m1 ++ [uninit 16]) s = put_globals f m1 s ++ [uninit 16]).
        { unfold put_globals. rewrite !putp_app; auto; rewrite ?g0_length, ?g1_length; auto.
          apply room_putp; rewrite ?g0_length; auto. }
        fold s. rewrite E. clear E. rewrite <- Emg, <- Lmg. unfold putp, put. cbn [pb po]. rewrite blk_mid, upd_mid. change (N.to_nat 0) with 0%nat.
        rewrite splice_all; [reflexivity|]. rewrite map_length, uninit_length. symmetry. exact LT.
    - rewrite LC in Gml. split; [apply HY|]. auto.
    - split; [|split; [exact Re|]].
      + apply (r_pvp_first f a rs cf Ha Hr7 Hal); auto.
        * split; auto. apply has_app. rewrite <- Lmg. apply has_blk0, blk_mid.
        * now apply has_app, has_app.
        * now apply has_app, has_app.
      + intros Hpos. assert (Hcal : forall i, (i < 4)%nat -> al8 cf (P i 0)) by auto.
        eexists. rewrite <- LC.
        apply (opt_enc_ok f a rs cf Ha Hr12 Hr1 Hr6 Hcal junk Hj) with (K := K) (Nn := Nn) (T := C); auto.
        all: try (intros b Hb; exact Logic.I).
        all: try (apply consts_app; [|auto using opt_consts_ne]; apply consts_app; auto using opt_consts_ne).
        all: try (apply room_app, room_app; auto).
        all: try (rewrite LC; lia).
        apply Gen. split; auto. apply (has_front mg c C tg). apply HY.
  Qed.

  (* The verdict and what follows it. *)
  Lemma vt_finish m2 m2' m mlen c npub k (n : nat) e e' : layout m2 m2' -> N.of_nat n < 2 ^ 64 ->
    has m2 mlen (word_le 8 (N.of_nat n)) -> has m2' mlen (word_le 8 (N.of_nat n)) ->
    (0 < n -> exists m3, runs (OptIsap.isap_enc a cf junk k npub c (N.of_nat n) m) m2 tt m3)%nat ->
    (0 < n -> exists m3, runs (OptIsap.isap_enc a cf junk k npub c (N.of_nat n) m) m2' tt m3)%nat ->
    vt [] (calls_enc I n) (finish a cf junk m mlen c npub k e) m2 (finish a cf junk m mlen c npub k e') m2'.
  Proof.
    intros L2 Hg Hml2 Hml2' R3 R3' t.
    set (body := (ml <- RefIsap.load_ull cf mlen ;;
         if_ (0 <? ml) (ml <- RefIsap.load_ull cf mlen ;; OptIsap.isap_enc a cf junk k npub c ml m) (ret tt) ;; ret 0%Z)).
    assert (B : exists mf mf', pt (calls_enc I n) body m2 0%Z mf body m2' 0%Z mf').
    { assert (Ld : pt [] (RefIsap.load_ull cf mlen) m2 (N.of_nat n) m2 (RefIsap.load_ull cf mlen) m2' (N.of_nat n) m2').
      { apply (pt_ct [] any); [exact L2|apply runs_load_ull; auto using al0; lia|apply runs_load_ull; auto using al0; lia|apply ct_load_ull]. }
      destruct (Nat.eq_dec n 0) as [Z|Z].
      - exists m2, m2'. unfold body. unfold calls_enc. replace (n =? 0)%nat with true by lia.
        change (@nil N) with (@nil N ++ []). eapply pt_bind; [exact Ld|].
        change (@nil N) with (@nil N ++ []). eapply pt_bind; [|apply pt_ret].
        apply pt_if. replace (0 <? N.of_nat n) with false by lia. apply pt_ret.
      - destruct R3 as (m3 & R3); [lia|]. destruct R3' as (m3' & R3'); [lia|].
        exists m3, m3'. unfold body. change (calls_enc I n) with ([] ++ calls_enc I n). eapply pt_bind; [exact Ld|].
        rewrite <- (app_nil_r (calls_enc I n)). eapply pt_bind; [|apply pt_ret].
        apply pt_if. replace (0 <? N.of_nat n) with true by lia. change (calls_enc I n) with ([] ++ calls_enc I n).
        eapply pt_bind; [exact Ld|]. eapply pt_ct; [exact L2|exact R3|exact R3'|apply ct_stp_enc; lia]. }
    destruct B as (mf & mf' & B). destruct (B (EBr true :: t)) as (u & B1 & B2 & Pu).
    assert (Acc : forall mz, finish a cf junk m mlen c npub k 16 (St mz t) = body (St mz (EBr true :: t))) by reflexivity.
    assert (Rej : forall y mz, y <> 16 -> finish a cf junk m mlen c npub k y (St mz t) = Ok (-1)%Z (St mz (EBr false :: t))).
    { intros y mz H. unfold finish. change RefIsap.ISAP_TAG_SZ with 16. replace (y =? 16) with false by lia. reflexivity. }
    destruct (N.eq_dec e 16) as [E|E]; destruct (N.eq_dec e' 16) as [E'|E']; subst.
    - exists 0%Z, (St mf (u ++ EBr true :: t)), 0%Z, (St mf' (u ++ EBr true :: t)), t, u, u.
      rewrite !Acc, B1, B2. cbn [strc]. rewrite app_nil_r. repeat split; auto; congruence.
    - exists 0%Z, (St mf (u ++ EBr true :: t)), (-1)%Z, (St m2' (EBr false :: t)), t, u, [].
      rewrite Acc, B1, Rej by exact E'. cbn [strc]. rewrite app_nil_r. repeat split; auto; congruence.
    - exists (-1)%Z, (St m2 (EBr false :: t)), 0%Z, (St mf' (u ++ EBr true :: t)), t, [], u.
      rewrite Acc, B2, Rej by exact E. cbn [strc]. rewrite app_nil_r. repeat split; auto; congruence.
    - exists (-1)%Z, (St m2 (EBr false :: t)), (-1)%Z, (St m2' (EBr false :: t)), t, [], [].
      rewrite !Rej by assumption. cbn [strc]. rewrite app_nil_r. repeat split; auto; congruence.
  Qed.

  Lemma stp_dec_vt mm mm' m mlen c ad npub k K Nn A Y K' Nn' A' Y' :
    dec_valid cf opt_consts mm m mlen c ad npub k K Nn A Y -> dec_apart mm m mlen c ad npub k A Y ->
    dec_valid cf opt_consts mm' m mlen c ad npub k K' Nn' A' Y' -> dec_apart mm' m mlen c ad npub k A' Y' ->
    length A = length A' -> length Y = length Y' -> layout mm mm' ->
    let call := a_dec (stp_impl a cf junk) m mlen c (N.of_nat (length Y)) ad (N.of_nat (length A)) npub k in
    vt (calls_mac I (length A) (length Y - 16) ++ [7; 7]) (calls_enc I (length Y - 16)) call mm call mm'.
  Proof.
    intros V Ap V' Ap' EA EY Hlay. cbv zeta.
    destruct (stp_states _ _ _ _ _ _ _ _ _ _ _ V Ap) as (mg & x & u & e & R1 & H1 & L1 & Rm & (HY & LC & Ltg & LY & Hml) & Rp & Rq & Re).
    destruct (stp_states _ _ _ _ _ _ _ _ _ _ _ V' Ap') as (mg' & x' & u' & e' & R1' & H1' & L1' & Rm' & (HY' & LC' & Ltg' & LY' & Hml') & Rp' & Rq' & Re').
    assert (Gy : 16 <= N.of_nat (length Y) < 2 ^ 64) by (pose proof (proj2 (dv_ct _ _ _ _ _ _ _ _ _ _ _ _ _ V)); lia).
    assert (Ga : N.of_nat (length A) < 2 ^ 64) by (pose proof (proj2 (dv_ad _ _ _ _ _ _ _ _ _ _ _ _ _ V)); lia).
    rewrite <- EY in R1', H1', L1', Rm', LC', Hml', Re', Rp', Rq', HY', Ltg', LY'. rewrite <- EA in Rm'. cbv zeta in *.
    set (n := (length Y - 16)%nat) in *.
    set (m1 := putp mm mlen (word_le 8 (N.of_nat n))) in *. set (m1' := putp mm' mlen (word_le 8 (N.of_nat n))) in *.
    assert (Lm : layout m1 m1') by exact (layout_ct _ _ _ _ _ _ _ _ _ _ Hlay R1 R1' (ct_store_ull cf mlen (N.of_nat n) (N.of_nat n))).
    assert (Lg : length m1' = length m1) by (symmetry; now apply layout_length). rewrite Lg in *.
    assert (Lu : layout (m1 ++ [uninit 16]) (m1' ++ [uninit 16])) by now apply layout_app.
    pose proof (ct_stp_mac k npub ad (length A) c n (P (length m1) 0) ltac:(lia) ltac:(lia)) as Cm.
    assert (Lx : layout (mg ++ [map Some x]) (mg' ++ [map Some x'])) by exact (layout_ct _ _ _ _ _ _ _ _ _ _ Lu Rm Rm' Cm).
    cbn [stp_impl a_dec]. unfold OptStp.crypto_aead_decrypt. change RefIsap.ISAP_TAG_SZ with 16. rewrite sub64_small by lia.
    replace (N.of_nat (length Y) - 16) with (N.of_nat n) by lia.
    eapply vt_bind0; [exact (pt_ct [] eq _ _ _ _ _ _ _ _ Hlay R1 R1' (ct_store_ull cf mlen (N.of_nat n) (N.of_nat n)))|].
    apply vt_with_block; [now symmetry|].
    eapply vt_bind0.
    { apply (pt_ct [] any _ _ _ (N.of_nat n) (m1 ++ [uninit 16]) _ (N.of_nat n) (m1' ++ [uninit 16]));
          [exact Lu|apply runs_load_ull; auto using al0; [now apply has_app|lia]|apply runs_load_ull; auto using al0; [now apply has_app|lia]|apply ct_load_ull]. }
    cbv beta.
    eapply vt_bind; [exact (pt_ct _ any _ _ _ _ _ _ _ _ Lu Rm Rm' Cm)|]. cbv beta.
    unfold compare_and_decrypt. apply vt_with_block; [now apply layout_length|].
    assert (Lmx : length (mg ++ [map Some x]) = S (length m1)) by (rewrite app_length, L1; cbn [length]; lia).
    eapply vt_bind0.
    { apply (copy_pt _ _ mlen c (firstn n Y) (skipn n Y) (firstn n Y') (skipn n Y') Lx); auto.
      - now apply has_app.
      - rewrite LC. now apply has_app.
      - now apply has_app.
      - rewrite LC'. now apply has_app.
      - now rewrite LC, LC'. }
    rewrite Lmx.
    assert (L2 : layout ((mg ++ [map Some x]) ++ [map Some (skipn n Y)]) ((mg' ++ [map Some x']) ++ [map Some (skipn n Y')])).
    { apply layout_app; auto. now rewrite !map_length, Ltg, Ltg'. }
    rewrite <- (app_nil_r [7; 7]). eapply vt_bind.
    { unfold pvp. change [7; 7] with ([7] ++ [7]). eapply pt_bind.
      - exact (pt_ct [7] any _ _ _ _ _ _ _ _ L2 Rp Rp' (ct_pvp_first _)).
      - exact (pt_ct [7] any _ _ _ _ _ _ _ _ L2 Rq Rq' (ct_pvp_second _ _ _)). }
    apply vt_finish; auto; [lia|now apply has_app, has_app|now apply has_app, has_app].
  Qed.

  Lemma stp_enc_pt mm mm' c clen m ad npub k K Nn A T K' Nn' A' T' :
    enc_valid cf opt_consts mm c clen m ad npub k K Nn A T ->
    apart mm S0 S1 [(k, 16); (npub, 16); (ad, length A); (m, length T); (c, length T + 16); (clen, 8)]%nat ->
    enc_valid cf opt_consts mm' c clen m ad npub k K' Nn' A' T' ->
    apart mm' S0 S1 [(k, 16); (npub, 16); (ad, length A'); (m, length T'); (c, length T' + 16); (clen, 8)]%nat ->
    length A = length A' -> length T = length T' -> layout mm mm' ->
    forall t, exists s s',
      a_enc (stp_impl a cf junk) c clen m (N.of_nat (length T)) ad (N.of_nat (length A)) npub k (St mm t) = Ok 0%Z s /\
      a_enc (stp_impl a cf junk) c clen m (N.of_nat (length T)) ad (N.of_nat (length A)) npub k (St mm' t) = Ok 0%Z s' /\
      strc s = strc s' /\ perms (strc s) = perms t ++ calls_enc I (length T) ++ calls_mac I (length A) (length T).
  Proof.
    intros V Ap V' Ap' EA ET Hlay t.
    destruct (stp_enc f a rs cf Ha Hr12 Hr1 Hr6 Hal junk Hj _ _ _ _ _ _ _ _ _ _ _ V Ap) as (h0 & h1 & _ & _ & R).
    destruct (stp_enc f a rs cf Ha Hr12 Hr1 Hr6 Hal junk Hj _ _ _ _ _ _ _ _ _ _ _ V' Ap') as (h0' & h1' & _ & _ & R').
    rewrite <- EA, <- ET in R'.
    pose proof (proj2 (ev_ad _ _ _ _ _ _ _ _ _ _ _ _ _ V)) as Ga. pose proof (proj2 (ev_msg _ _ _ _ _ _ _ _ _ _ _ _ _ V)) as Gt.
    cbn [stp_impl a_enc] in *. unfold OptStp.crypto_aead_encrypt in *.
    pose proof (ct_crypto_aead_encrypt (v_inst A128A) cf opt_consts (2 ^ 64) (fun n => n) (OptIsap.isap_enc a cf junk) (OptStp.isap_mac a cf)
      opt_consts_ne (fun n => ltac:(lia)) (fun k npub ad x c n tag H1 H2 => ct_stp_mac k npub ad x c n tag H1 H2) (fun k npub m n c H1 H2 => ct_stp_enc k npub m n c H1 H2)
      c clen m (length T) ad (length A) npub k ltac:(lia) ltac:(lia)) as Ce.
    destruct (pt_ct _ _ _ _ _ _ _ _ _ _ Hlay R R' Ce t) as (w & E1 & E2 & Pw).
    eexists _, _. split; [exact E1|]. split; [exact E2|]. cbn [strc]. split; auto. now rewrite perms_app, Pw.
  Qed.
End StpCt.

(* ---- The three directories ---- *)
Lemma fam_stp_enc_trace a cf junk mm mm' c clen m ad npub k K Nn A T K' Nn' A' T' :
  In a fam_stp -> strict cf = false -> length junk = 5%nat ->
  enc_valid cf opt_consts mm c clen m ad npub k K Nn A T ->
  apart mm S0 S1 [(k, 16); (npub, 16); (ad, length A); (m, length T); (c, length T + 16); (clen, 8)]%nat ->
  enc_valid cf opt_consts mm' c clen m ad npub k K' Nn' A' T' ->
  apart mm' S0 S1 [(k, 16); (npub, 16); (ad, length A'); (m, length T'); (c, length T' + 16); (clen, 8)]%nat ->
  length A = length A' -> length T = length T' -> layout mm mm' ->
  forall t, exists s s',
    a_enc (stp_impl a cf junk) c clen m (N.of_nat (length T)) ad (N.of_nat (length A)) npub k (St mm t) = Ok 0%Z s /\
    a_enc (stp_impl a cf junk) c clen m (N.of_nat (length T)) ad (N.of_nat (length A)) npub k (St mm' t) = Ok 0%Z s' /\
    strc s = strc s' /\ perms (strc s) = perms t ++ calls_enc (v_inst A128A) (length T) ++ calls_mac (v_inst A128A) (length A) (length T).
Proof.
  intros H Hs Hj. destruct (fam_stp_ok a H) as [f Hf].
  exact (stp_enc_pt f a rounds_stp cf Hf StpEx.in12 StpEx.in1 StpEx.in6 (lax_al cf Hs) junk Hj mm mm' c clen m ad npub k K Nn A T K' Nn' A' T').
Qed.
Lemma fam_stp_dec_trace a cf junk mm mm' m mlen c ad npub k K Nn A Y K' Nn' A' Y' :
  In a fam_stp -> strict cf = false -> length junk = 5%nat ->
  dec_valid cf opt_consts mm m mlen c ad npub k K Nn A Y -> dec_apart mm m mlen c ad npub k A Y ->
  dec_valid cf opt_consts mm' m mlen c ad npub k K' Nn' A' Y' -> dec_apart mm' m mlen c ad npub k A' Y' ->
  length A = length A' -> length Y = length Y' -> layout mm mm' ->
  forall t, exists r s r' s' t0 u u',
    a_dec (stp_impl a cf junk) m mlen c (N.of_nat (length Y)) ad (N.of_nat (length A)) npub k (St mm t) = Ok r s /\
    a_dec (stp_impl a cf junk) m mlen c (N.of_nat (length Y)) ad (N.of_nat (length A)) npub k (St mm' t) = Ok r' s' /\
    strc s = u ++ EBr (r =? 0)%Z :: t0 /\ strc s' = u' ++ EBr (r' =? 0)%Z :: t0 /\
    (r <> 0%Z -> u = []) /\ (r' <> 0%Z -> u' = []) /\ (r = r' -> u = u').
Proof.
  intros H Hs Hj V Ap V' Ap' EA EY Hl t. destruct (fam_stp_ok a H) as [f Hf].
  destruct (stp_dec_vt f a rounds_stp cf Hf StpEx.in12 StpEx.in1 StpEx.in6 StpEx.in7 (lax_al cf Hs) junk Hj mm mm' m mlen c ad npub k K Nn A Y K' Nn' A' Y' V Ap V' Ap' EA EY Hl t)
    as (r & s & r' & s' & t0 & u & u' & E1 & E2 & E3 & E4 & U1 & U2 & U3 & _).
  exists r, s, r', s', t0, u, u'. auto 8.
Qed.
Lemma fam_stp_enc_calls a cf junk mm c clen m ad npub k K Nn A T :
  In a fam_stp -> strict cf = false -> length junk = 5%nat ->
  enc_valid cf opt_consts mm c clen m ad npub k K Nn A T ->
  apart mm S0 S1 [(k, 16); (npub, 16); (ad, length A); (m, length T); (c, length T + 16); (clen, 8)]%nat ->
  forall t, exists s,
    a_enc (stp_impl a cf junk) c clen m (N.of_nat (length T)) ad (N.of_nat (length A)) npub k (St mm t) = Ok 0%Z s /\
    perms (strc s) = perms t ++ calls_enc (v_inst A128A) (length T) ++ calls_mac (v_inst A128A) (length A) (length T).
Proof.
  intros H Hs Hj V Ap t.
  destruct (fam_stp_enc_trace a cf junk mm mm c clen m ad npub k K Nn A T K Nn A T H Hs Hj V Ap V Ap eq_refl eq_refl eq_refl t) as (s & _ & E & _ & _ & E').
  eauto.
Qed.
Lemma fam_stp_dec_calls a cf junk mm m mlen c ad npub k K Nn A Y :
  In a fam_stp -> strict cf = false -> length junk = 5%nat ->
  dec_valid cf opt_consts mm m mlen c ad npub k K Nn A Y -> dec_apart mm m mlen c ad npub k A Y ->
  forall t, exists r s,
    a_dec (stp_impl a cf junk) m mlen c (N.of_nat (length Y)) ad (N.of_nat (length A)) npub k (St mm t) = Ok r s /\
    perms (strc s) = perms t ++ calls_mac (v_inst A128A) (length A) (length Y - 16) ++ [7; 7] ++
      (if (r =? 0)%Z then calls_enc (v_inst A128A) (length Y - 16) else []).
Proof.
  intros H Hs Hj V Ap t. destruct (fam_stp_ok a H) as [f Hf].
  destruct (stp_dec_vt f a rounds_stp cf Hf StpEx.in12 StpEx.in1 StpEx.in6 StpEx.in7 (lax_al cf Hs) junk Hj mm mm m mlen c ad npub k K Nn A Y K Nn A Y V Ap V Ap eq_refl eq_refl eq_refl t)
    as (r & s & r' & s' & t0 & u & u' & E1 & _ & E3 & _ & U1 & _ & _ & P0 & Pu).
  exists r, s. split; [exact E1|]. rewrite E3, perms_app. change (perms (EBr (r =? 0)%Z :: t0)) with (perms t0). rewrite P0, <- !app_assoc. do 3 f_equal.
  destruct (Z.eqb_spec r 0) as [Z|Z]; [now apply Pu|now rewrite (U1 Z)].
Qed.

(* ---- A concrete pair of calls: the empty text; the received tag is genuine in one and reversed in the other. ---- *)
Definition st_mem (Y : list N) : mem := ex_mem stp_blocks ex_K ex_N [] Y 0.
Lemma st_valid Y : bytes Y -> length Y = 16%nat ->
  dec_valid lax_cf opt_consts (st_mem Y) (ex_ptr stp_blocks 4) (ex_ptr stp_blocks 5)
    (ex_ptr stp_blocks 3) (ex_ptr stp_blocks 2) (ex_ptr stp_blocks 1) (ex_ptr stp_blocks 0) ex_K ex_N [] Y /\
  dec_apart (st_mem Y) (ex_ptr stp_blocks 4) (ex_ptr stp_blocks 5)
    (ex_ptr stp_blocks 3) (ex_ptr stp_blocks 2) (ex_ptr stp_blocks 1) (ex_ptr stp_blocks 0) [] Y.
Proof.
  intros BY LY. split.
  - apply (weaken_dec lax_cf opt_consts [repeat 7 8; repeat 9 8]). unfold st_mem.
    pose proof (ex_dec_valid lax_cf stp_blocks ex_K ex_N [] Y) as H. rewrite LY in H. cbn [Nat.sub] in H.
    apply H; auto using ex_bytes_K, ex_bytes_N; rewrite ?LY; try (reflexivity || lia). constructor.
  - split; [apply room_of_le; cbn; lia|]. split; [apply room_of_le; cbn; lia|].
    repeat (apply Forall_cons; [split; apply disj_blocks; cbn; lia|]). apply Forall_nil.
Qed.
Definition st_call (a : asconp) (junk : state) : M Z :=
  a_dec (stp_impl a lax_cf junk) (ex_ptr stp_blocks 4) (ex_ptr stp_blocks 5) (ex_ptr stp_blocks 3) 16 (ex_ptr stp_blocks 2) 0
    (ex_ptr stp_blocks 1) (ex_ptr stp_blocks 0).
Lemma st_bad : exists m', runs (st_call opt_32_stp [1; 2; 3; 4; 5]) (st_mem (rev tag_good)) (-1)%Z m'.
Proof. eexists. apply out_runs. intros t. vm_compute. reflexivity. Qed.
Lemma st_two a junk : In a fam_stp -> length junk = 5%nat ->
  exists m1 m2, runs (st_call a junk) (st_mem tag_good) 0%Z m1 /\ runs (st_call a junk) (st_mem (rev tag_good)) (-1)%Z m2.
Proof.
  intros Ia Hj.
  assert (B1 : bytes tag_good) by repeat constructor. assert (B2 : bytes (rev tag_good)) by repeat constructor.
  destruct (st_valid tag_good B1 eq_refl) as [V1 A1]. destruct (st_valid (rev tag_good) B2 eq_refl) as [V2 A2].
  assert (G : accepts ex_K ex_N [] tag_good).
  { rewrite <- good_isap. apply accepts_genuine; auto using ex_bytes_K, ex_bytes_N; constructor. }
  assert (Bd : ~ accepts ex_K ex_N [] (rev tag_good)).
  { intros Hacc. destruct (fam_stp_accept opt_32_stp lax_cf [1; 2; 3; 4; 5] _ _ _ _ _ _ _ _ _ _ _ ltac:(cbn; auto) eq_refl eq_refl V2 A2)
      as (h0 & h1 & _ & _ & R & _). destruct st_bad as (m' & Rb). specialize (R Hacc).
    destruct (runs_det _ _ _ _ _ _ Rb R) as [E _]. discriminate E. }
  destruct (fam_stp_accept a lax_cf junk _ _ _ _ _ _ _ _ _ _ _ Ia eq_refl Hj V1 A1) as (? & ? & _ & _ & R1 & _).
  destruct (fam_stp_accept a lax_cf junk _ _ _ _ _ _ _ _ _ _ _ Ia eq_refl Hj V2 A2) as (? & ? & _ & _ & _ & R2).
  eexists _, _. split; [exact (R1 G)|exact (R2 Bd)].
Qed.
Lemma st_layout : layout (st_mem tag_good) (st_mem (rev tag_good)).
Proof. reflexivity. Qed.
Lemma st_enc_two : let mm := ex_mem stp_blocks ex_K ex_N ex_A ex_T 35 in let mm' := ex_mem stp_blocks ex_N ex_K (rev ex_A) (rev ex_T) 35 in
  let bufs := [(ex_ptr stp_blocks 0, 16); (ex_ptr stp_blocks 1, 16); (ex_ptr stp_blocks 2, length ex_A); (ex_ptr stp_blocks 3, length ex_T);
    (ex_ptr stp_blocks 4, length ex_T + 16); (ex_ptr stp_blocks 5, 8)]%nat in
  enc_valid lax_cf opt_consts mm (ex_ptr stp_blocks 4) (ex_ptr stp_blocks 5)
    (ex_ptr stp_blocks 3) (ex_ptr stp_blocks 2) (ex_ptr stp_blocks 1) (ex_ptr stp_blocks 0) ex_K ex_N ex_A ex_T /\ apart mm S0 S1 bufs /\
  enc_valid lax_cf opt_consts mm' (ex_ptr stp_blocks 4) (ex_ptr stp_blocks 5)
    (ex_ptr stp_blocks 3) (ex_ptr stp_blocks 2) (ex_ptr stp_blocks 1) (ex_ptr stp_blocks 0) ex_N ex_K (rev ex_A) (rev ex_T) /\ apart mm' S0 S1 bufs /\
  layout mm mm' /\ ex_K <> ex_N /\ ex_T <> rev ex_T.
Proof.
  cbv zeta. destruct stp_enc_example as [V Ap]. split; [exact V|]. split; [exact Ap|]. split; [|split; [|split; [now apply ex_layout|split; discriminate]]].
  - apply (weaken_enc lax_cf opt_consts [repeat 7 8; repeat 9 8]).
    apply (ex_enc_valid lax_cf stp_blocks ex_N ex_K (rev ex_A) (rev ex_T)); auto using ex_bytes_K, ex_bytes_N; try reflexivity.
    + apply Forall_rev, ex_bytes_A.
    + apply Forall_rev, ex_bytes_T.
  - split; [apply room_of_le; cbn; lia|]. split; [apply room_of_le; cbn; lia|].
    repeat (apply Forall_cons; [split; apply disj_blocks; cbn; lia|]). apply Forall_nil.
Qed.
Lemma fam_stp_enc_trace' a cf junk mm mm' c clen m ad npub k K Nn A T K' Nn' A' T' :
  In a fam_stp -> strict cf = false -> length junk = 5%nat ->
  enc_valid cf opt_consts mm c clen m ad npub k K Nn A T ->
  apart mm S0 S1 [(k, 16); (npub, 16); (ad, length A); (m, length T); (c, length T + 16); (clen, 8)]%nat ->
  enc_valid cf opt_consts mm' c clen m ad npub k K' Nn' A' T' ->
  apart mm' S0 S1 [(k, 16); (npub, 16); (ad, length A'); (m, length T'); (c, length T' + 16); (clen, 8)]%nat ->
  length A = length A' -> length T = length T' -> layout mm mm' ->
  forall t, exists s s',
    a_enc (stp_impl a cf junk) c clen m (N.of_nat (length T)) ad (N.of_nat (length A)) npub k (St mm t) = Ok 0%Z s /\
    a_enc (stp_impl a cf junk) c clen m (N.of_nat (length T)) ad (N.of_nat (length A)) npub k (St mm' t) = Ok 0%Z s' /\
    strc s = strc s'.
Proof.
  intros H Hs Hj V Ap V' Ap' EA ET Hl t.
  destruct (fam_stp_enc_trace a cf junk mm mm' c clen m ad npub k K Nn A T K' Nn' A' T' H Hs Hj V Ap V' Ap' EA ET Hl t) as (s & s' & E1 & E2 & E3 & _).
  eauto.
Qed.
