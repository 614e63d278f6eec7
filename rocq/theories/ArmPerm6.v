(* KeccakP400_Permute_Nrounds and KeccakP400_Permute_20rounds of KeccakP-400-armv6m-le-gcc.s, from entry to return. Proofs only. *)
From Verif Require Import Base Prog SpecPerm Words RefPerm ArmIsa ArmAsm VocabAsm ArmSim ArmLoop ArmFun ArmPermFun KArmPermProof.
From Verif Require K64Perm.
From Verif Require KArmPerm.
Open Scope N_scope.

Lemma runs_one una rd wr tab i m : runs_is una rd wr tab [i] m = run1 una rd wr tab i m.
Proof. cbn [runs_is]. now destruct (run1 una rd wr tab i m). Qed.

Section P6.
  Variables (una : bool) (rd wr : N -> bool) (tab sb sp : N).
  Hypothesis Hsb : sb mod 4 = 0. Hypothesis Hsb' : sb + 50 < 2 ^ 32.
  Hypothesis Hsp : sp mod 4 = 0. Hypothesis Hsp' : 100 <= sp. Hypothesis Hsp'' : sp < 2 ^ 32.
  Hypothesis Ht : tab mod 2 = 0. Hypothesis Ht' : tab + 42 < 2 ^ 32.
  Hypothesis Rs : ok rd sb 50. Hypothesis Ws : ok wr sb 50.
  Hypothesis Rf : ok rd (sp - 100) 100. Hypothesis Wf : ok wr (sp - 100) 100.
  Hypothesis Rt : ok rd tab 42.
  Hypothesis Asf : apart sb 50 (sp - 100) 100. Hypothesis Ats : apart tab 42 sb 50. Hypothesis Atf : apart tab 42 (sp - 100) 100.

  Lemma place6 : place rd wr tab sb (sp - 96) (sp - 100).
  Proof.
    constructor; auto.
    - clear - Hsp Hsp'. lia.
    - lia.
    - right. lia.
    - destruct (apart_or _ _ _ _ Asf); lia.
    - intros a [Ha | Ha]; unfold inS in *; split; [apply Rs|apply Ws|apply Rf|apply Wf]; lia.
    - intros a Ha [H | H].
      + apply (Ats a). unfold inT, inS in *. lia.
      + apply (Atf a). unfold inT in *. lia.
  Qed.

  Definition save6 : list nat := [8; 9; 10; 11; 12; 7; 4; 5; 6; 14]%nat.
  Definition ready6 (n : nat) (m m1 : mc) : Prop :=
    sane m1 /\ rf m1 0%nat = sb /\ rf m1 6%nat = sp - 96 /\ rf m1 7%nat = tab + 2 * N.of_nat (20 - n) /\ rf m1 13%nat = sp - 96 /\
    (forall x, ~ sp - 96 <= x < sp -> me m1 x = me m x) /\ (forall j, (j < 10)%nat -> wd (me m1) (sp - 40 + 4 * N.of_nat j) = rf m (nth j save6 0%nat)).

  Definition post6 (n : nat) (m m' : mc) : Prop :=
    bytes_at m' sb 50 = keccak_p n (bytes_at m sb 50) /\ untouched m m' [(sb, 50); (sp - 100, 100)].

  Lemma nd6 : NoDup [r1; r2; r3; r4; r5; r7] /\ NoDup [r4; r5; r6].
  Proof. split; repeat (constructor; [intros H; repeat (destruct H as [H | H]; [discriminate|]); contradiction|]); constructor. Qed.

  Definition back6 (m : mc) : mc :=
    setr (setr (setr (setr (setr m 8 (rf m 1%nat)) 9 (rf m 2%nat)) 10 (rf m 3%nat)) 11 (rf m 4%nat)) 12 (rf m 5%nat).
  Lemma run_back6 m : runs_is una rd wr tab [MOV r8 r1; MOV r9 r2; MOV r10 r3; MOV r11 r4; MOV r12 r5] m = Some (back6 m).
  Proof. reflexivity. Qed.

  Lemma out6 : exists evs, forall m m2, rf m 13%nat = sp -> sane m2 -> rf m2 13%nat = sp - 96 ->
    (forall j, (j < 10)%nat -> wd (me m2) (sp - 40 + 4 * N.of_nat j) = rf m (nth j save6 0%nat)) ->
    exists m', (forall f, exec una rd wr tab (S f) armv6m_s 29 m2 = Back (rf m 14%nat) m') /\ tc m' = evs ++ tc m2 /\ sane m' /\ kept m m' /\ me m' = me m2.
  Proof.
    destruct nd6 as [ND1 ND2].
    exists (Ld (sp - 4) 4 :: ld_ev 3 (sp - 16) ++ ld_ev 6 (sp - 40) ++ [In 29]). intros m m2 E0 S2 E2 V.
    set (m3 := setr (see m2 (In 29)) 13 (sp - 40)).
    assert (R3 : runs_is una rd wr tab [ADDi 13 13 (25 * 2 + 6)] (see m2 (In 29)) = Some m3).
    { cbn [runs_is run1 ADDi opnd alu]. unfold m3. do 2 f_equal. cbn [see rf]. rewrite E2. rewrite w32_id; lia. }
    assert (S3 : sane m3) by (apply sane_setr; [exact S2|lia]).
    destruct (pop_gen una rd wr tab [r1; r2; r3; r4; r5; r7] (sp - 40) m3 ND1 S3 eq_refl) as (m4 & E4 & M4 & P4 & S4 & T4 & F4 & V4).
    { clear - Hsp Hsp'. lia. } { cbn [length]. lia. } { intros x Hx. cbn [length] in Hx. apply Rf. lia. }
    change (N.of_nat (length [r1; r2; r3; r4; r5; r7])) with 6 in P4. replace (sp - 40 + 4 * 6) with (sp - 16) in P4 by lia.
    set (m4' := back6 m4).
    assert (S4' : sane m4') by (unfold m4', back6; repeat apply sane_setr; auto; apply S4).
    destruct (pop_gen una rd wr tab [r4; r5; r6] (sp - 16) m4' ND2 S4') as (m7 & E7 & M7 & P7 & S7 & T7 & F7 & V7).
    { exact P4. } { clear - Hsp Hsp'. lia. } { cbn [length]. lia. } { intros x Hx. cbn [length] in Hx. apply Rf. lia. }
    change (N.of_nat (length [r4; r5; r6])) with 3 in P7. replace (sp - 16 + 4 * 3) with (sp - 4) in P7 by lia.
    assert (M72 : me m7 = me m2) by (rewrite M7; change (me m4') with (me m4); rewrite M4; reflexivity).
    set (m8 := see m7 (Ld (sp - 4) 4)). set (m9 := setr m8 13 sp).
    exists m9. split.
    { intros f. cbn [exec].
      change (nth_error armv6m_s 29) with (Some ([ADDi 13 13 (25 * 2 + 6)] ++ [IPop [r1; r2; r3; r4; r5; r7]] ++
        [MOV r8 r1; MOV r9 r2; MOV r10 r3; MOV r11 r4; MOV r12 r5], PopPc [r4; r5; r6])). cbv iota beta.
      rewrite runs_app, R3, runs_app, runs_one, E4. change (runs_is una rd wr tab [MOV r8 r1; MOV r9 r2; MOV r10 r3; MOV r11 r4; MOV r12 r5] m4) with (Some m4').
      cbv iota beta. rewrite E7, P7.
      rewrite load_ok.
      - fold (wd (me m7) (sp - 4)). fold m8. f_equal.
        + rewrite M72. specialize (V 9%nat ltac:(lia)). change (nth 9 save6 0%nat) with 14%nat in V. rewrite <- V. f_equal. lia.
        + cbn [m8 see rf]. rewrite P7. rewrite w32_id by lia. unfold m9, m8. do 2 f_equal. lia.
      - clear - Hsp Hsp'. lia.
      - rewrite addrs_4 by lia. intros x Hx. apply Rf. cbn [List.In] in Hx. lia. }
    split.
    { cbn [m9 m8 setr see tc]. rewrite T7. change (tc m4') with (tc m4). rewrite T4. cbn [m3 setr see tc length]. rewrite <- app_comm_cons, <- !app_assoc. reflexivity. }
    split; [apply sane_setr; [exact S7|exact Hsp'']|]. split; [|exact M72].
    assert (Lo : forall j, (j < 6)%nat -> rf m4 (nth j [r1; r2; r3; r4; r5; r7] 0%nat) = rf m (nth j save6 0%nat)).
    { intros j Hj. rewrite V4; [|exact Hj|do 6 (destruct j as [|j]; [discriminate|]); lia]. rewrite <- V by lia. reflexivity. }
    assert (Hi : forall j, (j < 3)%nat -> rf m7 (nth j [r4; r5; r6] 0%nat) = rf m (nth (6 + j) save6 0%nat)).
    { intros j Hj. rewrite V7; [|exact Hj|do 3 (destruct j as [|j]; [discriminate|]); lia]. rewrite <- V by lia.
      change (me m4') with (me m4). rewrite M4. change (me m3) with (me m2). f_equal. lia. }
    intros r Hr. cbn [m9 m8 setr see rf]. unfold set.
    destruct Hr as [<- | [<- | [<- | [<- | [<- | [<- | [<- | [<- | [<- | []]]]]]]]]]; cbn [Nat.eqb].
    - exact (Hi 0%nat ltac:(lia)).
    - exact (Hi 1%nat ltac:(lia)).
    - exact (Hi 2%nat ltac:(lia)).
    - rewrite F7; [|intros [H | [H | [H | []]]]; discriminate|discriminate]. exact (Lo 5%nat ltac:(lia)).
    - rewrite F7; [|intros [H | [H | [H | []]]]; discriminate|discriminate]. exact (Lo 0%nat ltac:(lia)).
    - rewrite F7; [|intros [H | [H | [H | []]]]; discriminate|discriminate]. exact (Lo 1%nat ltac:(lia)).
    - rewrite F7; [|intros [H | [H | [H | []]]]; discriminate|discriminate]. exact (Lo 2%nat ltac:(lia)).
    - rewrite F7; [|intros [H | [H | [H | []]]]; discriminate|discriminate]. exact (Lo 3%nat ltac:(lia)).
    - auto.
  Qed.

  Lemma rest6 n : (0 < n <= 20)%nat -> exists evs, forall m m1, sane m -> rf m 13%nat = sp -> has_table tab table6 m -> ready6 n m m1 ->
    exists fuel m', exec una rd wr tab fuel armv6m_s (if Nat.even n then 26 else 23) m1 = Back (rf m 14%nat) m' /\
      tc m' = evs ++ tc m1 /\ sane m' /\ kept m m' /\ post6 n m m'.
  Proof.
    intros Hn. destruct (body6 una rd wr tab sb (sp - 96) (sp - 100) table6 place6 table6_ok ltac:(lia) n Hn) as (ev1 & B).
    destruct out6 as (ev2 & O). exists (ev2 ++ ev1). intros m m1 Sm Em HT (S1 & R0 & R6 & R7 & R13 & F1 & V1).
    assert (P : st tab sb (sp - 96) table6 (KE (sp - 96)) (tab + 2 * N.of_nat (20 - n)) 0 m1 (env0 (me m1) sb (sp - 96))).
    { constructor.
      - apply env0_length.
      - apply rel_start; [exact S1|]. intros r Hr.
        do 15 (destruct r as [|r]; [cbn [nth KE holdsk]; split; [discriminate|]; try exact I; try (rewrite ?R0, ?R6, ?R7, ?R13; lia)|]). lia.
      - intros i Hi. rewrite <- (has_table_hw tab table6 m i); auto; [|apply Sm|apply t16_6].
        unfold hw. rewrite !F1; auto; intros H; [apply (Atf (tab + 2 * N.of_nat i + 1))|apply (Atf (tab + 2 * N.of_nat i))]; lia. }
    destruct (B m1 _ P) as (m2 & e2 & Ea & [k Go] & Q & K & T).
    pose proof (s_rel _ _ _ _ _ _ _ _ _ Q) as R2.
    assert (S2 : sane m2) by (split; [apply (l_f _ _ _ _ _ _ _ _ R2)|apply (l_g _ _ _ _ _ _ _ _ R2)]).
    assert (X : forall x, sp - 46 <= x < sp -> ~ inX sb (sp - 96) (sp - 100) x).
    { intros x Hx [H | H]; [|lia]. apply (Asf x). unfold inS in H. lia. }
    destruct (O m m2 Em S2) as (m' & Ex & T' & S' & K' & M').
    { pose proof (l_r _ _ _ _ _ _ _ _ R2 13%nat ltac:(lia)) as H. cbn [nth KE holdsk] in H. lia. }
    { intros j Hj. rewrite <- V1 by exact Hj. apply wd_ext; [lia|]. intros x Hx. apply K, X. lia. }
    exists (k + 1)%nat, m'. rewrite Go. split; [apply Ex|]. split; [now rewrite T', T, app_assoc|]. split; [exact S'|]. split; [exact K'|]. split.
    - unfold bytes_at at 1. rewrite M'. change (map (fun i => me m2 (sb + N.of_nat i)) (seq 0 50)) with (bytes_at m2 sb 50).
      replace (bytes_at m sb 50) with (bytes_at m1 sb 50).
      2: { apply bytes_at_ext. intros i Hi. apply F1. intros H. apply (Asf (sb + N.of_nat i)). lia. }
      apply (core KArmPerm.armv6m (fun _ => []) n m1 m2 sb (sp - 96) e2 armv6m_ok armv6m_term Hn (proj2 S1) (proj2 S2) Ea).
      intros l Hl. rewrite (l_S _ _ _ _ _ _ _ _ R2 l Hl), nth_upd_nth. destruct (Nat.eqb_spec l 63); [lia|reflexivity].
    - intros x Hx. rewrite M'. pose proof (Hx sb 50 ltac:(cbn; auto)) as H1. pose proof (Hx (sp - 100) 100 ltac:(cbn; auto)) as H2.
      rewrite K; [apply F1; lia|]. intros [H | H]; unfold inS in *; lia.
  Qed.

  Definition mv6 (m : mc) : mc :=
    setr (setr (setr (setr (setr m 2 (rf m 8%nat)) 3 (rf m 9%nat)) 4 (rf m 10%nat)) 5 (rf m 11%nat)) 6 (rf m 12%nat).

  Lemma in6 l : exists evs, forall m, sane m -> rf m 13%nat = sp -> rf m 0%nat = sb ->
    exists m1, runs_is una rd wr tab enter6 (see m (In l)) = Some m1 /\ sane m1 /\ tc m1 = evs ++ tc m /\
      (forall r, (r < 2)%nat -> rf m1 r = rf m r) /\ rf m1 6%nat = sp - 96 /\ rf m1 13%nat = sp - 96 /\ (forall x, ~ sp - 96 <= x < sp -> me m1 x = me m x) /\
      (forall j, (j < 10)%nat -> wd (me m1) (sp - 40 + 4 * N.of_nat j) = rf m (nth j save6 0%nat)).
  Proof.
    exists (st_ev 6 (sp - 40) ++ st_ev 4 (sp - 16) ++ [In l]). intros m Sm Em E0.
    destruct (push_gen una rd wr tab [r4; r5; r6; lr] sp (see m (In l)) Sm Em Hsp) as (m1 & E1 & R1 & S1 & T1 & F1 & V1).
    { cbn [length]. lia. } { cbn [length]. intros x Hx. apply Wf. lia. }
    { intros H. repeat (destruct H as [H|H]; [discriminate|]). contradiction. }
    change (4 * N.of_nat (length [r4; r5; r6; lr])) with 16 in *. change (length [r4; r5; r6; lr]) with 4%nat in *.
    set (m2 := mv6 m1).
    assert (S2 : sane m2) by (unfold m2, mv6; repeat apply sane_setr; auto; apply S1).
    assert (R13 : rf m2 13%nat = sp - 16) by (change (rf m2 13%nat) with (rf m1 13%nat); rewrite R1; reflexivity).
    destruct (push_gen una rd wr tab [r2; r3; r4; r5; r6; r7] (sp - 16) m2 S2 R13) as (m3 & E3 & R3 & S3 & T3 & F3 & V3).
    { clear - Hsp Hsp'. lia. } { cbn [length]. lia. } { cbn [length]. intros x Hx. apply Wf. lia. }
    { intros H. repeat (destruct H as [H|H]; [discriminate|]). contradiction. }
    change (4 * N.of_nat (length [r2; r3; r4; r5; r6; r7])) with 24 in *. change (length [r2; r3; r4; r5; r6; r7]) with 6%nat in *.
    replace (sp - 16 - 24) with (sp - 40) in * by lia.
    set (m4 := setr (setr m3 13 (sp - 96)) 6 (sp - 96)).
    exists m4. split.
    { change enter6 with ([IPush [r4; r5; r6; lr]] ++ [MOV r2 r8; MOV r3 r9; MOV r4 r10; MOV r5 r11; MOV r6 r12] ++ [IPush [r2; r3; r4; r5; r6; r7]] ++
        [SUBi 13 13 56; MOV r6 13]).
      rewrite runs_app, runs_one, E1, runs_app.
      change (runs_is una rd wr tab [MOV r2 r8; MOV r3 r9; MOV r4 r10; MOV r5 r11; MOV r6 r12] m1) with (Some m2). cbv iota beta.
      rewrite runs_app, runs_one, E3. cbn [runs_is run1 SUBi MOV opnd alu]. rewrite R3. unfold m4, set. cbn [setr rf Nat.eqb]. unfold set. cbn [Nat.eqb].
      rewrite w32_sub by lia. replace (sp - 40 - 56) with (sp - 96) by lia. reflexivity. }
    split; [unfold m4; repeat apply sane_setr; auto; lia|].
    split. { cbn [m4 setr tc]. rewrite T3. change (tc m2) with (tc m1). rewrite T1. cbn [see tc]. now rewrite <- !app_assoc. }
    split. { intros r Hr. cbn [m4 setr rf]. rewrite R3. unfold set. destruct (Nat.eqb_spec r 6); [lia|]. destruct (Nat.eqb_spec r 13); [lia|].
      unfold m2, mv6. cbn [setr rf]. rewrite R1. unfold set. cbn [see rf].
      destruct r as [|[|r]]; [reflexivity|reflexivity|lia]. }
    split; [reflexivity|]. split; [reflexivity|].
    split. { intros x Hx. cbn [m4 setr me]. rewrite F3 by lia. change (me m2) with (me m1). rewrite F1 by lia. reflexivity. }
    assert (U : forall r, (7 <= r < 13)%nat -> rf m1 r = rf m r).
    { intros r Hr. rewrite R1. unfold set. destruct (Nat.eqb_spec r 13); [lia|reflexivity]. }
    intros j Hj. cbn [m4 setr me]. destruct (Nat.lt_ge_cases j 6) as [H6 | H6].
    - rewrite V3 by exact H6. clear Hj. destruct j as [|[|[|[|[|[|j]]]]]];
        [exact (U 8%nat ltac:(lia))|exact (U 9%nat ltac:(lia))|exact (U 10%nat ltac:(lia))|exact (U 11%nat ltac:(lia))|exact (U 12%nat ltac:(lia))
        |exact (U 7%nat ltac:(lia))|lia].
    - rewrite (wd_ext (me m1)); [|lia|intros x Hx; rewrite F3; [reflexivity|lia]].
      replace (sp - 40 + 4 * N.of_nat j) with (sp - 16 + 4 * N.of_nat (j - 6)) by lia. rewrite V1 by lia.
      do 10 (destruct j as [|j]; [reflexivity || lia|]). lia.
  Qed.

  Lemma nrounds6 n : (0 < n <= 20)%nat ->
    call una rd wr tab armv6m_s Permute_Nrounds6
      (fun m => rf m 0%nat = sb /\ rf m 1%nat = N.of_nat n /\ rf m 13%nat = sp /\ has_table tab table6 m) (post6 n).
  Proof.
    intros Hn. destruct (rest6 n Hn) as (ev2 & R). destruct (in6 22) as (ev1 & I).
    exists (ev2 ++ (if Nat.even n then [In 24] else []) ++ ev1). intros m Sm (E0 & E1 & E13 & HT).
    destruct (I m Sm E13 E0) as (m1 & X1 & S1 & T1 & F1 & P6 & P1 & M1 & V1).
    assert (exists z c z' c', runs_is una rd wr tab (enter6 ++ [IAdr r7 40; SUBS r7 r7 r1; SUBS r7 r7 r1; LSLSi r1 r1 31]) (see m (In 22)) =
      Some (setf (setr (setf (setr (setf (setr (setr m1 7 (tab + 40)) 7 (tab + 40 - N.of_nat n)) z c) 7 (tab + 2 * N.of_nat (20 - n))) z' c')
        1 (w32 (N.shiftl (N.of_nat n) 31))) (Nat.even n) (N.testbit (N.of_nat n) (32 - 31)))) as (z & c & z' & c' & X3).
    { do 4 eexists. rewrite runs_app, X1. cbn [runs_is run1 SUBS LSLSi opnd alu shifted setr setf rf]. unfold set, r1, r7. cbn [Nat.eqb].
      rewrite F1, E1 by lia. rewrite shl31 by lia. rewrite !(w32_id (tab + 40)) by lia. rewrite !(w32_sub (tab + 40)) by lia.
      rewrite !(w32_sub (tab + 40 - N.of_nat n)) by lia.
      replace (tab + 40 - N.of_nat n - N.of_nat n) with (tab + 2 * N.of_nat (20 - n)) by lia. reflexivity. }
    match type of X3 with _ = Some ?x => set (m3 := x) in * end.
    pose proof (goes_br una rd wr tab armv6m_s 22 _ EQ 24 23 m m3 eq_refl X3) as Go. cbn [holds] in Go. change (fz m3) with (Nat.even n) in Go.
    set (m4 := if Nat.even n then see m3 (In 24) else m3).
    assert (Go' : goes una rd wr tab armv6m_s 22 m (if Nat.even n then 26 else 23) m4).
    { unfold m4. destruct (Nat.even n); [|exact Go]. eapply goes_trans; [exact Go|].
      apply (goes_jmp una rd wr tab armv6m_s 24 [] 26 m3 (see m3 (In 24)) eq_refl eq_refl). }
    assert (R4 : rf m4 = rf m3 /\ me m4 = me m3) by (unfold m4; destruct (Nat.even n); auto). destruct R4 as [R4 M4].
    destruct (R m m4 Sm E13 HT) as (fuel & m' & Ex & T' & S' & K' & Po).
    { unfold ready6, sane. rewrite R4, M4. split; [|split; [|split; [|split; [|split; [|split]]]]].
      - assert (S3 : sane m3).
        { unfold m3. repeat (apply sane_setf || apply sane_setr); auto; try apply w32_lt; lia. }
        exact S3.
      - unfold m3. cbn [setf setr rf]. unfold set. cbn [Nat.eqb]. rewrite F1 by lia. exact E0.
      - unfold m3. cbn [setf setr rf]. unfold set. cbn [Nat.eqb]. exact P6.
      - reflexivity.
      - unfold m3. cbn [setf setr rf]. unfold set. cbn [Nat.eqb]. exact P1.
      - exact M1.
      - exact V1. }
    destruct Go' as [k Go']. exists (k + fuel)%nat, m'. rewrite Go'. split; [exact Ex|]. split; [|auto].
    rewrite T'. rewrite <- !app_assoc. f_equal. unfold m4. destruct (Nat.even n); cbn [see tc app]; change (tc m3) with (tc m1); now rewrite T1.
  Qed.

  Lemma rounds20_6 :
    call una rd wr tab armv6m_s Permute_20rounds6 (fun m => rf m 0%nat = sb /\ rf m 13%nat = sp /\ has_table tab table6 m) (post6 20).
  Proof.
    destruct (rest6 20 ltac:(lia)) as (ev2 & R). destruct (in6 25) as (ev1 & I). exists (ev2 ++ ev1). intros m Sm (E0 & E13 & HT).
    destruct (I m Sm E13 E0) as (m1 & X1 & S1 & T1 & F1 & P6 & P1 & M1 & V1).
    set (m3 := setr m1 7 (w32 (tab + 0))).
    assert (X3 : runs_is una rd wr tab (enter6 ++ [IAdr r7 0]) (see m (In 25)) = Some m3) by (rewrite runs_app, X1; reflexivity).
    assert (Go : goes una rd wr tab armv6m_s 25 m 26 m3) by (apply (goes_jmp una rd wr tab armv6m_s 25 _ 26 m m3 eq_refl X3)).
    destruct (R m m3 Sm E13 HT) as (fuel & m' & Ex & T' & S' & K' & Po).
    { unfold ready6. split; [|split; [|split; [|split; [|split; [|split]]]]].
      - apply sane_setr; [exact S1|apply w32_lt].
      - cbn [m3 setr rf]. unfold set. cbn [Nat.eqb]. rewrite F1 by lia. exact E0.
      - cbn [m3 setr rf]. unfold set. cbn [Nat.eqb]. exact P6.
      - cbn [m3 setr rf]. unfold set. cbn [Nat.eqb]. rewrite w32_id by lia. reflexivity.
      - cbn [m3 setr rf]. unfold set. cbn [Nat.eqb]. exact P1.
      - exact M1.
      - exact V1. }
    destruct Go as [k Go]. exists (k + fuel)%nat, m'. rewrite Go. split; [exact Ex|]. split; [|auto].
    rewrite T'. cbn [m3 setr tc]. now rewrite T1, app_assoc.
  Qed.
End P6.
