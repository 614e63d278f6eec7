(* KeccakP400_Initialize and KeccakP400_OverwriteWithZeroes of the ARM assembler files. Proofs only. *)
From Verif Require Import Base Prog SpecPerm Words ArmIsa ArmAsm VocabAsm ArmSim ArmLoop ArmFun ArmPermFun ArmBytes.
Open Scope N_scope.

Definition zeroed (m m' : mc) (a n : N) : Prop := forall x, me m' x = if (a <=? x) && (x <? a + n) then 0 else me m x.
Lemma zeroed_0 m a : zeroed m m a 0.
Proof. intros x. destruct (N.leb_spec a x), (N.ltb_spec x (a + 0)); cbn [andb]; auto. exfalso. lia. Qed.
Lemma zeroed_app m m1 m2 a n k : zeroed m m1 a n -> zeroed m1 m2 (a + n) k -> zeroed m m2 a (n + k).
Proof.
  intros H1 H2 x. rewrite H2, H1.
  destruct (N.leb_spec (a + n) x), (N.ltb_spec x (a + n + k)), (N.leb_spec a x), (N.ltb_spec x (a + n)), (N.ltb_spec x (a + (n + k))); cbn [andb]; auto; exfalso; lia.
Qed.
Lemma zeroed_down m m1 m2 a n : zeroed m m1 (a + n) 1 -> zeroed m1 m2 a n -> zeroed m m2 a (n + 1).
Proof.
  intros H1 H2 x. rewrite H2, H1.
  destruct (N.leb_spec (a + n) x), (N.ltb_spec x (a + n + 1)), (N.leb_spec a x), (N.ltb_spec x (a + n)), (N.ltb_spec x (a + (n + 1))); cbn [andb]; auto; exfalso; lia.
Qed.
Lemma zeroed_post m m' a n : zeroed m m' a (N.of_nat n) -> bytes_at m' a n = repeat 0 n /\ untouched m m' [(a, N.of_nat n)].
Proof.
  intros H. split.
  - apply bytes_at_is; [apply repeat_length|]. intros i Hi. rewrite H, nth_repeat0.
    destruct (N.leb_spec a (a + N.of_nat i)), (N.ltb_spec (a + N.of_nat i) (a + N.of_nat n)); cbn [andb]; auto; exfalso; lia.
  - intros x Hx. specialize (Hx a (N.of_nat n) ltac:(cbn; auto)). rewrite H.
    destruct (N.leb_spec a x), (N.ltb_spec x (a + N.of_nat n)); cbn [andb]; auto. exfalso. lia.
Qed.
Lemma zeroed_put m a n e f z c : (n = 1 \/ n = 2 \/ n = 4)%nat -> a + N.of_nat n <= 2 ^ 32 -> zeroed m (Mc f z c (putn (me m) a n 0) e) a (N.of_nat n).
Proof.
  intros Hn Ha x. cbn [me]. destruct Hn as [-> | [-> | ->]].
  - change (N.of_nat 1) with 1 in *. rewrite putn_1 by lia. change (0 mod 256) with 0.
    destruct (N.eqb_spec x a), (N.leb_spec a x), (N.ltb_spec x (a + 1)); cbn [andb]; auto; exfalso; lia.
  - change (N.of_nat 2) with 2 in *. rewrite putn_2 by lia.
    repeat match goal with |- context [?a =? ?b] => destruct (N.eqb_spec a b) end; destruct (N.leb_spec a x), (N.ltb_spec x (a + 2)); cbn [andb]; auto; exfalso; lia.
  - change (N.of_nat 4) with 4 in *. rewrite putn_4 by lia.
    repeat match goal with |- context [?a =? ?b] => destruct (N.eqb_spec a b) end; destruct (N.leb_spec a x), (N.ltb_spec x (a + 4)); cbn [andb]; auto; exfalso; lia.
Qed.

Section Zero.
  Variables (una : bool) (rd wr : N -> bool) (tab : N).

  (* ---------- Initialize ---------- *)

  Lemma stm0 a m : sane m -> rf m 0%nat = a -> rf m 1%nat = 0 -> rf m 2%nat = 0 -> rf m 3%nat = 0 -> a mod 4 = 0 -> a + 12 < 2 ^ 32 -> ok wr a 12 ->
    exists m', run1 una rd wr tab (IStm r0 [r1; r2; r3]) m = Some m' /\ rf m' = set (rf m) 0 (a + 12) /\ sane m' /\ tc m' = st_ev 3 a ++ tc m /\ zeroed m m' a 12.
  Proof.
    intros S E0 E1 E2 E3 Ha Hb Hw. cbn [run1]. unfold r0. rewrite E0.
    destruct (stms_gen wr [r1; r2; r3] a m S Ha Hb Hw) as (m' & X & Er & S' & T & F & V). rewrite X. cbn [optmap]. eexists. split; [reflexivity|].
    unfold words. change (4 * N.of_nat (length [r1; r2; r3])) with 12 in *. rewrite w32_id by exact Hb. split; [cbn [setr rf]; now rewrite Er|].
    split; [apply sane_setr; [exact S'|exact Hb]|]. split; [exact T|].
    intros x. cbn [setr me]. destruct (N.leb_spec a x), (N.ltb_spec x (a + 12)); cbn [andb]; try (apply F; lia).
    assert (Z : forall j, (j < 3)%nat -> wd (me m') (a + 4 * N.of_nat j) = 0).
    { intros j Hj. rewrite V by exact Hj. destruct j as [|[|[|j]]]; [exact E1|exact E2|exact E3|lia]. }
    set (j := N.to_nat ((x - a) / 4)). assert (Hj : (j < 3)%nat) by (unfold j; lia). specialize (Z j Hj). unfold wd in Z. rewrite addrs_4 in Z by lia.
    cbn [map] in Z. rewrite le_word_4 in Z.
    assert (x = a + 4 * N.of_nat j \/ x = a + 4 * N.of_nat j + 1 \/ x = a + 4 * N.of_nat j + 2 \/ x = a + 4 * N.of_nat j + 3) as D by (unfold j; lia).
    clearbody j. destruct D as [D | [D | [D | D]]]; rewrite D; lia.
  Qed.

  Lemma init_ok tail s : s mod 4 = 0 -> s + 50 < 2 ^ 32 -> ok wr s 50 ->
    call una rd wr tab (common ++ tail) Initialize (fun m => rf m 0%nat = s)
      (fun m m' => bytes_at m' s 50 = repeat 0 50 /\ untouched m m' [(s, 50)]).
  Proof.
    intros Ha Hb Hw. exists (St (s + 48) 2 :: st_ev 3 (s + 36) ++ st_ev 3 (s + 24) ++ st_ev 3 (s + 12) ++ st_ev 3 s ++ [In 1]). intros m S E0.
    set (m0 := setf (setr (setf (setr (setf (setr (see m (In 1)) 1 0) true (fc m)) 2 0) true (fc m)) 3 0) true (fc m)).
    assert (S0 : sane m0) by (unfold m0; repeat (apply sane_setf, sane_setr; [|reflexivity]); exact S).
    destruct (stm0 s m0 S0 E0 eq_refl eq_refl eq_refl Ha) as (m1 & X1 & R1 & S1 & T1 & Z1); [lia|intros x Hx; apply Hw; lia|].
    destruct (stm0 (s + 12) m1 S1) as (m2 & X2 & R2 & S2 & T2 & Z2); try (rewrite R1; reflexivity); [clear - Ha; lia|lia|intros x Hx; apply Hw; lia|].
    replace (s + 12 + 12) with (s + 24) in * by lia.
    destruct (stm0 (s + 24) m2 S2) as (m3 & X3 & R3 & S3 & T3 & Z3); try (rewrite R2, ?R1; reflexivity); [clear - Ha; lia|lia|intros x Hx; apply Hw; lia|].
    replace (s + 24 + 12) with (s + 36) in * by lia.
    destruct (stm0 (s + 36) m3 S3) as (m4 & X4 & R4 & S4 & T4 & Z4); try (rewrite R3, ?R2, ?R1; reflexivity); [clear - Ha; lia|lia|intros x Hx; apply Hw; lia|].
    replace (s + 36 + 12) with (s + 48) in * by lia.
    set (m5 := see (setm m4 (putn (me m4) (s + 48) 2 0)) (St (s + 48) 2)).
    assert (X5 : run1 una rd wr tab (STRH r1 r0 0) m4 = Some m5).
    { cbn [run1 STRH]. unfold r0, r1. rewrite R4, R3, R2, R1. unfold set. cbn [Nat.eqb m0 setf setr rf]. unfold set. cbn [Nat.eqb].
      rewrite N.add_0_r, w32_id by lia. apply store_ok.
      - unfold al. destruct una; [apply N.mod_1_r|change (N.of_nat 2) with 2; clear - Ha; lia].
      - rewrite addrs_2 by lia. intros x Hx. apply Hw. cbn [List.In] in Hx. lia. }
    assert (Hr : forall r, List.In r [4; 5; 6; 7; 8; 9; 10; 11; 13; 14]%nat -> rf m5 r = rf m r).
    { intros r Hr. cbn [m5 see setm rf]. rewrite R4, R3, R2, R1. cbn [m0 setf setr see rf]. unfold set.
      repeat (destruct Hr as [<- | Hr]; [reflexivity|]). contradiction. }
    exists 1%nat, m5. split.
    { unfold Initialize. cbn [exec]. change (nth_error (common ++ tail) 1) with (Some ([MOVSi r1 0; MOVSi r2 0; MOVSi r3 0; IStm r0 [r1; r2; r3]; IStm r0 [r1; r2; r3];
        IStm r0 [r1; r2; r3]; IStm r0 [r1; r2; r3]; STRH r1 r0 0], BxLr)). cbv iota beta.
      change (runs_is una rd wr tab [MOVSi r1 0; MOVSi r2 0; MOVSi r3 0; IStm r0 [r1; r2; r3]; IStm r0 [r1; r2; r3]; IStm r0 [r1; r2; r3];
        IStm r0 [r1; r2; r3]; STRH r1 r0 0] (see m (In 1))) with
        (runs_is una rd wr tab [IStm r0 [r1; r2; r3]; IStm r0 [r1; r2; r3]; IStm r0 [r1; r2; r3]; IStm r0 [r1; r2; r3]; STRH r1 r0 0] m0).
      remember (IStm r0 [r1; r2; r3]) as stm in *. remember (STRH r1 r0 0) as strh in *. clear Heqstm Heqstrh. cbn [runs_is]. rewrite X1, X2, X3, X4, X5. rewrite Hr by (cbn [List.In]; lia). reflexivity. }
    split. { cbn [m5 see setm tc]. rewrite T4, T3, T2, T1. cbn [m0 setf setr see tc]. rewrite <- app_comm_cons, <- !app_assoc. reflexivity. }
    split. { split; [apply S4|]. intros x. cbn [m5 see setm me]. apply putn_byte; [auto|change (N.of_nat 2) with 2; lia|apply S4]. }
    split; [intros r H; apply Hr; cbn [List.In] in *; lia|].
    apply (zeroed_post m m5 s 50). change (N.of_nat 50) with (12 + (12 + (12 + (12 + 2)))).
    eapply zeroed_app; [exact Z1|]. eapply zeroed_app; [exact Z2|]. replace (s + 12 + 12) with (s + 24) by lia. eapply zeroed_app; [exact Z3|].
    replace (s + 24 + 12) with (s + 36) by lia. eapply zeroed_app; [exact Z4|]. replace (s + 36 + 12) with (s + 48) by lia.
    apply (zeroed_put m4 (s + 48) 2); [auto|]. change (N.of_nat 2) with 2. lia.
  Qed.

  (* ---------- OverwriteWithZeroes, armv6m ---------- *)

  Lemma loop6 s n : s + N.of_nat n < 2 ^ 32 -> ok wr s (N.of_nat n) -> (0 < n)%nat ->
    exists evs, forall m, sane m -> rf m 0%nat = s -> rf m 1%nat = N.of_nat n -> rf m 3%nat = 0 ->
      exists m', goes una rd wr tab armv6m_s 20 m 21 m' /\ tc m' = evs ++ tc m /\ sane m' /\ (forall r, r <> 1%nat -> rf m' r = rf m r) /\ zeroed m m' s (N.of_nat n).
  Proof.
    intros Hb Hw. induction n as [|n IH]; intros Hn; [lia|].
    assert (B : forall m, sane m -> rf m 0%nat = s -> rf m 1%nat = N.of_nat (S n) -> rf m 3%nat = 0 ->
      exists m1, runs_is una rd wr tab [SUBSi r1 r1 1; IStrbR r3 r0 r1] (see m (In 20)) = Some m1 /\ tc m1 = [St (s + N.of_nat n) 1; In 20] ++ tc m /\ sane m1 /\
        rf m1 = set (rf m) 1 (N.of_nat n) /\ fz m1 = (N.of_nat n =? 0) /\ zeroed m m1 (s + N.of_nat n) 1).
    { intros m Sm R0 R1 R3. set (m0 := setf (setr (see m (In 20)) 1 (N.of_nat n)) (N.of_nat n =? 0) (1 <=? N.of_nat (S n))).
      assert (X0 : run1 una rd wr tab (SUBSi r1 r1 1) (see m (In 20)) = Some m0).
      { cbn [run1 SUBSi opnd alu see rf]. unfold r1. rewrite R1, w32_sub by lia. replace (N.of_nat (S n) - 1) with (N.of_nat n) by lia. reflexivity. }
      eexists. split; [cbn [runs_is]; rewrite X0; rewrite (strb_step una rd wr tab _ _ _ _ (s + N.of_nat n)); [reflexivity| |lia|apply Hw; lia]|].
      { cbn [m0 setf setr see rf]. unfold set, r0, r1. cbn [Nat.eqb]. now rewrite R0. }
      split; [reflexivity|]. split.
      { split.
        - intros r. cbn [see setm m0 setf setr rf]. unfold set. destruct (r =? 1)%nat; [lia|apply Sm].
        - intros x. cbn [see setm me]. apply putn_byte; [auto|change (N.of_nat 1) with 1; lia|apply Sm]. }
      split; [reflexivity|]. split; [reflexivity|]. change (rf m0 r3) with (rf m 3%nat). rewrite R3.
      apply (zeroed_put m (s + N.of_nat n) 1); [auto|change (N.of_nat 1) with 1; lia]. }
    destruct n as [|n].
    - exists [St (s + N.of_nat 0) 1; In 20]. intros m Sm R0 R1 R3. destruct (B m Sm R0 R1 R3) as (m1 & X1 & T1 & S1 & Rg & Z1 & M1).
      exists m1. pose proof (goes_br una rd wr tab armv6m_s 20 _ NE 20 21 m m1 eq_refl X1) as G. cbn [holds] in G. rewrite Z1 in G.
      split; [exact G|]. split; [exact T1|]. split; [exact S1|]. split.
      + intros r Hr. rewrite Rg. unfold set. destruct (Nat.eqb_spec r 1); [contradiction|reflexivity].
      + change (N.of_nat 1) with 1. change (N.of_nat 0) with 0 in M1. rewrite N.add_0_r in M1. exact M1.
    - destruct IH as (ev & IH'); [lia|intros x Hx; apply Hw; lia|lia|]. exists (ev ++ [St (s + N.of_nat (S n)) 1; In 20]). intros m Sm R0 R1 R3.
      destruct (B m Sm R0 R1 R3) as (m1 & X1 & T1 & S1 & Rg & Z1 & M1).
      pose proof (goes_br una rd wr tab armv6m_s 20 _ NE 20 21 m m1 eq_refl X1) as G. cbn [holds] in G. rewrite Z1 in G.
      destruct (N.eqb_spec (N.of_nat (S n)) 0) as [E | _]; [lia|]. cbn [negb] in G.
      destruct (IH' m1 S1) as (m' & G' & T' & S' & R' & M'); try (rewrite Rg; unfold set; cbn [Nat.eqb]; assumption || reflexivity).
      exists m'. split; [exact (goes_trans _ _ _ _ _ _ _ _ _ _ _ G G')|]. split; [rewrite T', T1; now rewrite <- app_assoc|]. split; [exact S'|]. split.
      + intros r Hr. rewrite R' by exact Hr. rewrite Rg. unfold set. destruct (Nat.eqb_spec r 1); [contradiction|reflexivity].
      + replace (N.of_nat (S (S n))) with (N.of_nat (S n) + 1) by lia. eapply zeroed_down; [exact M1|exact M'].
  Qed.

  Lemma zeroes6_ok s n : s + N.of_nat n < 2 ^ 32 -> ok wr s (N.of_nat n) ->
    call una rd wr tab armv6m_s OverwriteWithZeroes (fun m => rf m 0%nat = s /\ rf m 1%nat = N.of_nat n)
      (fun m m' => bytes_at m' s n = repeat 0 n /\ untouched m m' [(s, N.of_nat n)]).
  Proof.
    intros Hb Hw.
    assert (E : exists ev, forall m, sane m -> rf m 0%nat = s /\ rf m 1%nat = N.of_nat n -> exists m', goes una rd wr tab armv6m_s 19 m 21 m' /\
      tc m' = ev ++ tc m /\ sane m' /\ (forall r, r <> 1%nat -> r <> 3%nat -> rf m' r = rf m r) /\ zeroed m m' s (N.of_nat n)).
    { set (st m := setf (setf (setr (see m (In 19)) 3 0) true (fc m)) (w32 (N.of_nat n + 2 ^ 32 - 0) =? 0) (0 <=? N.of_nat n)).
      assert (X : forall m, rf m 1%nat = N.of_nat n -> runs_is una rd wr tab [MOVSi r3 0; ICmp r1 (Im 0)] (see m (In 19)) = Some (st m)).
      { intros m E. cbn [runs_is run1 MOVSi opnd alu]. unfold r1, r3. cbn [setf setr see rf fc]. unfold set. cbn [Nat.eqb]. rewrite E. reflexivity. }
      destruct (Nat.eq_dec n 0) as [L0 | L0].
      - exists [In 19]. intros m Sm (R0 & R1). exists (st m). pose proof (goes_br una rd wr tab armv6m_s 19 _ EQ 21 20 m (st m) eq_refl (X m R1)) as G.
        cbn [holds st setf fz] in G. rewrite L0 in G. change (w32 (N.of_nat 0 + 2 ^ 32 - 0) =? 0) with true in G. cbv iota in G.
        split; [exact G|]. split; [reflexivity|]. split; [apply sane_setf, sane_setf, sane_setr; [exact Sm|reflexivity]|]. split.
        + intros r _ Hr. cbn [st setf setr see rf]. unfold set. destruct (Nat.eqb_spec r 3); [contradiction|reflexivity].
        + rewrite L0. exact (zeroed_0 m s).
      - destruct (loop6 s n Hb Hw ltac:(lia)) as (ev & L). exists (ev ++ [In 19]). intros m Sm (R0 & R1).
        pose proof (goes_br una rd wr tab armv6m_s 19 _ EQ 21 20 m (st m) eq_refl (X m R1)) as G. cbn [holds] in G. change (fz (st m)) with (w32 (N.of_nat n + 2 ^ 32 - 0) =? 0) in G.
        rewrite w32_sub in G by lia. destruct (N.eqb_spec (N.of_nat n - 0) 0) as [H | _]; [exfalso; lia|].
        destruct (L (st m)) as (m' & G' & T' & S' & R' & M').
        { apply sane_setf, sane_setf, sane_setr; [exact Sm|reflexivity]. } { exact R0. } { exact R1. } { reflexivity. }
        exists m'. split; [exact (goes_trans _ _ _ _ _ _ _ _ _ _ _ G G')|]. split; [rewrite T'; cbn [st setf setr see tc]; now rewrite <- app_assoc|].
        split; [exact S'|]. split; [|exact M'].
        intros r H1 H3. rewrite R' by exact H1. cbn [st setf setr see rf]. unfold set. destruct (Nat.eqb_spec r 3); [contradiction|reflexivity]. }
    destruct E as (ev & E). exists (In 21 :: ev). intros m Sm P. destruct (E m Sm P) as (m' & [k G] & T & S' & R & Z).
    exists (k + 1)%nat, (see m' (In 21)). rewrite G. split. { change (exec una rd wr tab 1 armv6m_s 21 m') with (Back (rf m' 14%nat) (see m' (In 21))). now rewrite R. }
    split; [cbn [see tc]; now rewrite T|]. split; [exact S'|].
    split; [intros r Hr; apply R; intros ->; cbn [List.In] in Hr; lia|]. exact (zeroed_post m m' s n Z).
  Qed.

  (* ---------- OverwriteWithZeroes, armv7m ---------- *)

  Section Up.
    Variables (w l lx cr : nat).
    Hypothesis Hw1 : (w = 4 /\ l = 20 /\ lx = 21 /\ cr = 2 \/ w = 1 /\ l = 22 /\ lx = 23 /\ cr = 1)%nat.

    Lemma loop7 n : forall s, s + N.of_nat w * N.of_nat n < 2 ^ 32 -> ok wr s (N.of_nat w * N.of_nat n) -> (una = true \/ s mod 4 = 0 \/ w = 1%nat) -> (0 < n)%nat ->
      exists evs, forall m, sane m -> rf m 0%nat = s -> rf m cr = N.of_nat n -> rf m 3%nat = 0 ->
        exists m', goes una rd wr tab armv7m_s l m lx m' /\ tc m' = evs ++ tc m /\ sane m' /\ rf m' 0%nat = s + N.of_nat w * N.of_nat n /\
          (forall r, r <> 0%nat -> r <> cr -> rf m' r = rf m r) /\ zeroed m m' s (N.of_nat w * N.of_nat n).
    Proof.
      assert (El : nth_error armv7m_s l = Some ([IStrP w r3 r0 (N.of_nat w); SUBSi cr cr 1], Br NE l lx)).
      { destruct Hw1 as [(-> & -> & -> & ->) | (-> & -> & -> & ->)]; reflexivity. }
      assert (Hc : cr <> 0%nat /\ cr <> 3%nat /\ (w = 1 \/ w = 2 \/ w = 4)%nat) by lia. destruct Hc as (Hc0 & Hc3 & Hw4).
      induction n as [|n IH]; intros s Hb Hw Hal Hn; [lia|].
      assert (B : forall m, sane m -> rf m 0%nat = s -> rf m cr = N.of_nat (S n) -> rf m 3%nat = 0 ->
        exists m1, runs_is una rd wr tab [IStrP w r3 r0 (N.of_nat w); SUBSi cr cr 1] (see m (In l)) = Some m1 /\ tc m1 = [St s w; In l] ++ tc m /\ sane m1 /\
          rf m1 = set (set (rf m) 0 (s + N.of_nat w)) cr (N.of_nat n) /\ fz m1 = (N.of_nat n =? 0) /\ zeroed m m1 s (N.of_nat w)).
      { intros m Sm R0 R1 R3. set (m0 := setr (see (setm (see m (In l)) (putn (me m) s w 0)) (St s w)) 0 (s + N.of_nat w)).
        assert (X0 : run1 una rd wr tab (IStrP w r3 r0 (N.of_nat w)) (see m (In l)) = Some m0).
        { cbn [run1 see rf]. unfold r0, r3. rewrite R0, R3. rewrite store_ok.
          - cbn [see setm rf me]. rewrite R0, w32_id by lia. reflexivity.
          - unfold al. destruct Hal as [-> | [Ha | ->]]; [apply N.mod_1_r| |destruct una; apply N.mod_1_r].
            destruct una; [apply N.mod_1_r|]. destruct Hw4 as [-> | [-> | ->]]; [apply N.mod_1_r| |exact Ha]. change (N.of_nat 2) with 2. clear - Ha. lia.
          - destruct Hw4 as [-> | [-> | ->]]; [rewrite addrs_1 by lia|rewrite addrs_2 by lia|rewrite addrs_4 by lia]; intros x Hx; apply Hw; cbn [List.In] in Hx; lia. }
        assert (R1' : rf m0 cr = N.of_nat (S n)).
        { cbn [m0 setr see setm rf]. unfold set. destruct (Nat.eqb_spec cr 0); [contradiction|exact R1]. }
        eexists. split; [cbn [runs_is]; rewrite X0; cbn [run1 SUBSi opnd alu]; rewrite R1', w32_sub by lia; reflexivity|].
        replace (N.of_nat (S n) - 1) with (N.of_nat n) by lia. split; [reflexivity|].
        split. { apply sane_setf, sane_setr; [|lia]. apply sane_setr; [|lia]. split; [apply Sm|]. intros x. cbn [see setm me]. apply putn_byte; [exact Hw4|lia|apply Sm]. }
        split; [reflexivity|]. split; [reflexivity|]. apply (zeroed_put m s w); [exact Hw4|lia]. }
      destruct n as [|n].
      - exists [St s w; In l]. intros m Sm R0 R1 R3. destruct (B m Sm R0 R1 R3) as (m1 & X1 & T1 & S1 & Rg & Z1 & M1).
        exists m1. pose proof (goes_br una rd wr tab armv7m_s l _ NE l lx m m1 El X1) as G. cbn [holds] in G. rewrite Z1 in G.
        split; [exact G|]. split; [exact T1|]. split; [exact S1|]. split; [|split].
        + rewrite Rg. unfold set. destruct (Nat.eqb_spec 0 cr); [exfalso; lia|]. cbn [Nat.eqb]. lia.
        + intros r H0 Hr. rewrite Rg. unfold set. destruct (Nat.eqb_spec r cr); [contradiction|]. destruct (Nat.eqb_spec r 0); [contradiction|reflexivity].
        + replace (N.of_nat w * N.of_nat 1) with (N.of_nat w) by lia. exact M1.
      - destruct (IH (s + N.of_nat w)) as (ev & IH'); [lia|intros x Hx; apply Hw; lia| |lia|].
        { destruct Hal as [H | [H | H]]; auto. right. destruct Hw4 as [-> | [-> | ->]]; [auto|exfalso; lia|]. left. change (N.of_nat 4) with 4. clear - H. lia. }
        exists (ev ++ [St s w; In l]). intros m Sm R0 R1 R3.
        destruct (B m Sm R0 R1 R3) as (m1 & X1 & T1 & S1 & Rg & Z1 & M1).
        pose proof (goes_br una rd wr tab armv7m_s l _ NE l lx m m1 El X1) as G. cbn [holds] in G. rewrite Z1 in G.
        destruct (N.eqb_spec (N.of_nat (S n)) 0) as [E | _]; [lia|]. cbn [negb] in G.
        destruct (IH' m1 S1) as (m' & G' & T' & S' & R0' & R' & M').
        { rewrite Rg. unfold set. destruct (Nat.eqb_spec 0 cr); [exfalso; lia|reflexivity]. }
        { rewrite Rg. unfold set. now rewrite Nat.eqb_refl. }
        { rewrite Rg. unfold set. destruct (Nat.eqb_spec 3 cr); [exfalso; lia|exact R3]. }
        exists m'. split; [exact (goes_trans _ _ _ _ _ _ _ _ _ _ _ G G')|]. split; [rewrite T', T1; now rewrite <- app_assoc|]. split; [exact S'|].
        split; [rewrite R0'; lia|]. split.
        + intros r H0 Hr. rewrite R' by assumption. rewrite Rg. unfold set. destruct (Nat.eqb_spec r cr); [contradiction|]. destruct (Nat.eqb_spec r 0); [contradiction|reflexivity].
        + replace (N.of_nat w * N.of_nat (S (S n))) with (N.of_nat w + N.of_nat w * N.of_nat (S n)) by lia. eapply zeroed_app; [exact M1|exact M'].
    Qed.
  End Up.

  (* one part: a block that tests the number of rounds, then the loop *)
  Lemma part7 (l l1 lx : nat) (is : list instr) (P Q : mc -> Prop) n (f : mc -> mc) s w :
    nth_error armv7m_s l = Some (is, Br EQ lx l1) ->
    (forall m, sane m -> P m -> runs_is una rd wr tab is (see m (In l)) = Some (f m) /\ fz (f m) = (N.of_nat n =? 0) /\ sane (f m) /\ me (f m) = me m /\ Q (f m) /\
      tc (f m) = In l :: tc m /\ rf (f m) 0%nat = s /\ forall r, r <> 1%nat -> r <> 2%nat -> r <> 3%nat -> rf (f m) r = rf m r) ->
    ((0 < n)%nat -> exists evs, forall m, sane m -> Q m -> rf m 0%nat = s -> exists m', goes una rd wr tab armv7m_s l1 m lx m' /\ tc m' = evs ++ tc m /\ sane m' /\
       rf m' 0%nat = s + w * N.of_nat n /\ (forall r, r <> 0%nat -> r <> 1%nat -> r <> 2%nat -> rf m' r = rf m r) /\ (rf m' 1%nat = rf m 1%nat \/ lx = 23%nat) /\ zeroed m m' s (w * N.of_nat n)) ->
    exists evs, forall m, sane m -> P m -> exists m', goes una rd wr tab armv7m_s l m lx m' /\ tc m' = evs ++ tc m /\ sane m' /\
       rf m' 0%nat = s + w * N.of_nat n /\ (forall r, r <> 0%nat -> r <> 1%nat -> r <> 2%nat -> r <> 3%nat -> rf m' r = rf m r) /\ rf m' 3%nat = rf (f m) 3%nat /\
       (rf m' 1%nat = rf (f m) 1%nat \/ lx = 23%nat) /\ zeroed m m' s (w * N.of_nat n).
  Proof.
    intros El F L. destruct (Nat.eq_dec n 0) as [L0 | L0].
    - exists [In l]. intros m Sm HP. destruct (F m Sm HP) as (X & Z & S1 & M & HQ & T & R0 & R). exists (f m).
      pose proof (goes_br una rd wr tab armv7m_s l _ EQ lx l1 m (f m) El X) as G. cbn [holds] in G. rewrite Z, L0 in G.
      split; [exact G|]. split; [exact T|]. split; [exact S1|]. split; [rewrite R0, L0; lia|]. split; [intros r H0 H1 H2 H3; apply R; assumption|].
      split; [reflexivity|]. split; [left; reflexivity|]. rewrite L0. change (N.of_nat 0) with 0. rewrite N.mul_0_r. intros x. rewrite M. exact (zeroed_0 m s x).
    - destruct L as (ev & L); [lia|]. exists (ev ++ [In l]). intros m Sm HP. destruct (F m Sm HP) as (X & Z & S1 & M & HQ & T & R0 & R).
      pose proof (goes_br una rd wr tab armv7m_s l _ EQ lx l1 m (f m) El X) as G. cbn [holds] in G. rewrite Z in G.
      destruct (N.eqb_spec (N.of_nat n) 0) as [H | _]; [exfalso; lia|].
      destruct (L (f m) S1 HQ R0) as (m' & G' & T' & S' & R0' & R' & R1' & Z').
      exists m'. split; [exact (goes_trans _ _ _ _ _ _ _ _ _ _ _ G G')|]. split; [rewrite T', T; now rewrite <- app_assoc|]. split; [exact S'|].
      split; [exact R0'|]. split; [intros r H0 H1 H2 H3; rewrite R' by assumption; apply R; assumption|].
      split; [apply R'; discriminate|]. split; [exact R1'|]. intros x. rewrite Z', M. reflexivity.
  Qed.

  Lemma zeroes7_ok s n : s + N.of_nat n < 2 ^ 32 -> ok wr s (N.of_nat n) -> una = true \/ s mod 4 = 0 ->
    call una rd wr tab armv7m_s OverwriteWithZeroes (fun m => rf m 0%nat = s /\ rf m 1%nat = N.of_nat n)
      (fun m m' => bytes_at m' s n = repeat 0 n /\ untouched m m' [(s, N.of_nat n)]).
  Proof.
    intros Hb Hw Hal. set (q := (n / 4)%nat). set (k := (n mod 4)%nat).
    assert (Eqk : N.of_nat n = 4 * N.of_nat q + 1 * N.of_nat k) by (unfold q, k; lia).
    assert (Eq : N.shiftr (N.of_nat n) 2 = N.of_nat q) by (rewrite N.shiftr_div_pow2; change (2 ^ 2) with 4; unfold q; lia).
    assert (Ek : N.land (N.of_nat n) 3 = N.of_nat k) by (rewrite (N.land_ones (N.of_nat n) 2 : N.land (N.of_nat n) 3 = _); change (2 ^ 2) with 4; unfold k; lia).
    clearbody q k.
    destruct (part7 19 20 21 [MOVSi r3 0; LSRSi r2 r1 2] (fun m => rf m 0%nat = s /\ rf m 1%nat = N.of_nat n)
      (fun m => rf m 2%nat = N.of_nat q /\ rf m 3%nat = 0) q
      (fun m => setf (setr (setf (setr (see m (In 19)) 3 0) true (fc m)) 2 (N.of_nat q)) (N.of_nat q =? 0) (N.testbit (N.of_nat n) (2 - 1))) s 4 eq_refl) as (ev1 & A1).
    { intros m Sm (R0 & R1). split.
      { cbn [runs_is run1 MOVSi LSRSi opnd alu shifted]. unfold r1, r2, r3. cbn [setf setr see rf fc]. unfold set. cbn [Nat.eqb]. rewrite R1, Eq. reflexivity. }
      split; [reflexivity|]. split; [apply sane_setf, sane_setr; [apply sane_setf, sane_setr; [exact Sm|reflexivity]|lia]|].
      split; [reflexivity|]. split; [split; reflexivity|]. split; [reflexivity|]. split; [exact R0|].
      intros r H1 H2 H3. cbn [setf setr see rf]. unfold set. destruct (Nat.eqb_spec r 2); [contradiction|]. destruct (Nat.eqb_spec r 3); [contradiction|reflexivity]. }
    { intros Hq. destruct (loop7 4 20 21 2 ltac:(left; auto) q s) as (ev & L); [change (N.of_nat 4) with 4; lia|intros x Hx; apply Hw; change (N.of_nat 4) with 4 in Hx; lia|tauto|exact Hq|].
      exists ev. intros m Sm (Q2 & Q3) R0. destruct (L m Sm R0 Q2 Q3) as (m' & G & T & S' & R0' & R' & Z). exists m'. repeat (split; [assumption|]).
      split; [intros r H0 H1 H2; apply R'; assumption|]. split; [left; apply R'; discriminate|exact Z]. }
    destruct (part7 21 22 23 [IDp true DAnd r1 r1 (Im 3)] (fun m => rf m 0%nat = s + 4 * N.of_nat q /\ rf m 1%nat = N.of_nat n /\ rf m 3%nat = 0)
      (fun m => rf m 1%nat = N.of_nat k /\ rf m 3%nat = 0) k
      (fun m => setf (setr (see m (In 21)) 1 (N.of_nat k)) (N.of_nat k =? 0) (fc m)) (s + 4 * N.of_nat q) 1 eq_refl) as (ev2 & A2).
    { intros m Sm (R0 & R1 & R3). split.
      { cbn [runs_is run1 opnd alu]. unfold r1. cbn [see rf]. rewrite R1, Ek. reflexivity. }
      split; [reflexivity|]. split; [apply sane_setf, sane_setr; [exact Sm|lia]|].
      split; [reflexivity|]. split; [split; [reflexivity|exact R3]|]. split; [reflexivity|]. split; [exact R0|].
      intros r H1 H2 H3. cbn [setf setr see rf]. unfold set. destruct (Nat.eqb_spec r 1); [contradiction|reflexivity]. }
    { intros Hk. destruct (loop7 1 22 23 1 ltac:(right; auto) k (s + 4 * N.of_nat q)) as (ev & L); [change (N.of_nat 1) with 1; lia|intros x Hx; apply Hw; change (N.of_nat 1) with 1 in Hx; lia|tauto|exact Hk|].
      exists ev. intros m Sm (Q2 & Q3) R0. destruct (L m Sm R0 Q2 Q3) as (m' & G & T & S' & R0' & R' & Z). exists m'. repeat (split; [assumption|]).
      split; [intros r H0 H1 H2; apply R'; assumption|]. split; [right; reflexivity|exact Z]. }
    exists (In 23 :: ev2 ++ ev1). intros m Sm (R0 & R1).
    destruct (A1 m Sm (conj R0 R1)) as (m1 & G1 & T1 & S1 & Q0 & Qr & Q3 & [Q1 | Q1] & Z1); [|discriminate].
    destruct (A2 m1 S1) as (m2 & G2 & T2 & S2 & P0 & Pr & P3 & _ & Z2).
    { split; [exact Q0|]. split; [rewrite Q1; exact R1|rewrite Q3; reflexivity]. }
    destruct (goes_trans _ _ _ _ _ _ _ _ _ _ _ G1 G2) as [f G]. exists (f + 1)%nat, (see m2 (In 23)). rewrite G.
    assert (K : forall r, r <> 0%nat -> r <> 1%nat -> r <> 2%nat -> r <> 3%nat -> rf m2 r = rf m r) by (intros r H0 H1 H2 H3; rewrite Pr, Qr by assumption; reflexivity).
    split. { change (exec una rd wr tab 1 armv7m_s 23 m2) with (Back (rf m2 14%nat) (see m2 (In 23))). now rewrite K. }
    split; [cbn [see tc]; rewrite T2, T1, app_assoc; reflexivity|]. split; [exact S2|].
    split; [intros r Hr; apply K; intros ->; cbn [List.In] in Hr; lia|].
    apply (zeroed_post m m2 s n). rewrite Eqk. eapply zeroed_app; [exact Z1|exact Z2].
  Qed.
End Zero.
