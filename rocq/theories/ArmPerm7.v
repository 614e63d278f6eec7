(* KeccakP400_Permute_Nrounds and KeccakP400_Permute_20rounds of KeccakP-400-armv7m-le-gcc.s, from entry to return. Proofs only. *)
From Verif Require Import Base Prog SpecPerm Words RefPerm ArmIsa ArmAsm VocabAsm ArmSim ArmLoop ArmFun ArmPermFun KArmPermProof.
From Verif Require K64Perm.
From Verif Require KArmPerm.
Open Scope N_scope.

Section P7.
  Variables (rd wr : N -> bool) (tab sb sp : N).
  Hypothesis Hsb : sb mod 4 = 0. Hypothesis Hsb' : sb + 50 < 2 ^ 32.
  Hypothesis Hsp : sp mod 4 = 0. Hypothesis Hsp' : 96 <= sp. Hypothesis Hsp'' : sp < 2 ^ 32.
  Hypothesis Ht : tab mod 2 = 0. Hypothesis Ht' : tab + 42 < 2 ^ 32.
  Hypothesis Rs : ok rd sb 50. Hypothesis Ws : ok wr sb 50.
  Hypothesis Rf : ok rd (sp - 96) 96. Hypothesis Wf : ok wr (sp - 96) 96.
  Hypothesis Rt : ok rd tab 42.
  Hypothesis Asf : apart sb 50 (sp - 96) 96. Hypothesis Ats : apart tab 42 sb 50. Hypothesis Atf : apart tab 42 (sp - 96) 96.

  Lemma place7 : place rd wr tab sb (sp - 96) (sp - 96).
  Proof.
    constructor; auto.
    - clear - Hsp Hsp'. lia.
    - lia.
    - destruct (apart_or _ _ _ _ Asf); lia.
    - intros a [Ha | Ha]; unfold inS in *; split; [apply Rs|apply Ws|apply Rf|apply Wf]; lia.
    - intros a Ha [H | H].
      + apply (Ats a). unfold inT, inS in *. lia.
      + apply (Atf a). unfold inT in *. lia.
  Qed.

  Definition save7 : list nat := saved7 ++ [lr].
  Definition ready7 (n : nat) (m m1 : mc) : Prop :=
    sane m1 /\ rf m1 0%nat = sb /\ rf m1 8%nat = tab + 2 * N.of_nat (20 - n) /\ rf m1 13%nat = sp - 96 /\
    (forall x, ~ sp - 96 <= x < sp -> me m1 x = me m x) /\ (forall j, (j < 10)%nat -> wd (me m1) (sp - 40 + 4 * N.of_nat j) = rf m (nth j save7 0%nat)).

  Definition post (n : nat) (m m' : mc) : Prop :=
    bytes_at m' sb 50 = keccak_p n (bytes_at m sb 50) /\ untouched m m' [(sb, 50); (sp - 96, 96)].

  Lemma out7 : exists evs, forall m m2, rf m 13%nat = sp -> sane m2 -> rf m2 13%nat = sp - 96 ->
    (forall j, (j < 10)%nat -> wd (me m2) (sp - 40 + 4 * N.of_nat j) = rf m (nth j save7 0%nat)) ->
    exists m', (forall f, exec true rd wr tab (S f) armv7m_s 30 m2 = Back (rf m 14%nat) m') /\ tc m' = evs ++ tc m2 /\ sane m' /\ kept m m' /\ me m' = me m2.
  Proof.
    eexists (Ld (sp - 4) 4 :: ld_ev 9 (sp - 40) ++ [In 30]). intros m m2 E0 S2 E2 V.
    set (m3 := setr (see m2 (In 30)) 13 (sp - 40)).
    assert (R3 : runs_is true rd wr tab [ADDi 13 13 (2 * 25 + 6)] (see m2 (In 30)) = Some m3).
    { cbn [runs_is run1 ADDi opnd alu]. unfold m3. do 2 f_equal. cbn [see rf]. rewrite E2. rewrite w32_id; lia. }
    assert (S3 : sane m3) by (apply sane_setr; [exact S2|lia]).
    destruct (pop_gen true rd wr tab saved7 (sp - 40) m3) as (m4 & E4 & M4 & P4 & S4 & T4 & F4 & V4).
    { unfold saved7. repeat (constructor; [cbn; unfold r4, r5, r6, r7, r8, r9, r10, r11, r12; lia|]). constructor. }
    { exact S3. } { reflexivity. } { clear - Hsp Hsp'. lia. } { change (N.of_nat (length saved7)) with 9. lia. }
    { intros x Hx. change (N.of_nat (length saved7)) with 9 in Hx. apply Rf. lia. }
    change (N.of_nat (length saved7)) with 9 in P4. replace (sp - 40 + 4 * 9) with (sp - 4) in P4 by lia.
    set (m5 := see m4 (Ld (sp - 4) 4)). set (m6 := setr m5 13 sp).
    exists m6. split.
    { intros f. cbn [exec]. change (nth_error armv7m_s 30) with (Some ([ADDi 13 13 (2 * 25 + 6)], PopPc saved7)). cbv iota beta. rewrite R3, E4, P4.
      rewrite load_ok.
      - fold (wd (me m4) (sp - 4)). fold m5. f_equal.
        + rewrite M4. specialize (V 9%nat ltac:(lia)). change (nth 9 save7 0%nat) with 14%nat in V. rewrite <- V. cbn [m3 setr see me]. f_equal. lia.
        + cbn [m5 see rf]. rewrite P4. rewrite w32_id by lia. unfold m6, m5. do 2 f_equal. lia.
      - clear - Hsp Hsp'. lia.
      - rewrite addrs_4 by lia. intros x Hx. apply Rf. cbn [List.In] in Hx. lia. }
    split; [cbn [m6 m5 setr see tc]; rewrite T4; cbn [m3 setr see tc]; rewrite <- app_comm_cons, <- app_assoc; reflexivity|].
    split; [apply sane_setr; [exact S4|exact Hsp'']|]. split; [|exact M4].
    intros r Hr. cbn [m6 m5 setr see rf]. unfold set.
    destruct (Nat.eqb_spec r 13) as [->|N13]; [auto|].
    assert (exists j, (j < 9)%nat /\ r = nth j saved7 0%nat) as (j & Hj & Ej).
    { cbn [List.In] in Hr. exists (r - 4)%nat. split; [lia|].
      repeat (destruct Hr as [<- | Hr]; [reflexivity || (elim N13; reflexivity)|]). contradiction. }
    subst r. rewrite V4 by (exact Hj || exact N13). specialize (V j ltac:(lia)). cbn [m3 setr see me]. rewrite V. unfold save7. now rewrite app_nth1.
  Qed.

  Lemma rest7 n : (0 < n <= 20)%nat -> exists evs, forall m m1, sane m -> rf m 13%nat = sp -> has_table tab table7 m -> ready7 n m m1 ->
    exists fuel m', exec true rd wr tab fuel armv7m_s (if Nat.even n then 27 else 25) m1 = Back (rf m 14%nat) m' /\
      tc m' = evs ++ tc m1 /\ sane m' /\ kept m m' /\ post n m m'.
  Proof.
    intros Hn. destruct (body7 true rd wr tab sb (sp - 96) (sp - 96) table7 place7 eq_refl table7_ok n Hn) as (ev1 & B).
    destruct out7 as (ev2 & O). exists (ev2 ++ ev1). intros m m1 Sm Em HT (S1 & R0 & R8 & R13 & F1 & V1).
    assert (P : st tab sb (sp - 96) table7 K7e (tab + 2 * N.of_nat (20 - n)) 0 m1 (env0 (me m1) sb (sp - 96))).
    { constructor.
      - apply env0_length.
      - apply rel_start; [exact S1|]. intros r Hr.
        do 15 (destruct r as [|r]; [cbn [nth K7e holdsk]; split; [discriminate|]; try exact I; try (rewrite ?R0, ?R8, ?R13; lia)|]). lia.
      - intros i Hi. rewrite <- (has_table_hw tab table7 m i); auto; [|apply Sm|apply t16_7].
        unfold hw. rewrite !F1; auto; intros H; [apply (Atf (tab + 2 * N.of_nat i + 1))|apply (Atf (tab + 2 * N.of_nat i))]; lia. }
    destruct (B m1 _ P) as (m2 & e2 & Ea & [k Go] & Q & K & T).
    pose proof (s_rel _ _ _ _ _ _ _ _ _ Q) as R2.
    assert (S2 : sane m2) by (split; [apply (l_f _ _ _ _ _ _ _ _ R2)|apply (l_g _ _ _ _ _ _ _ _ R2)]).
    assert (X : forall x, sp - 46 <= x < sp -> ~ inX sb (sp - 96) (sp - 96) x).
    { intros x Hx [H | H]; [|lia]. apply (Asf x). unfold inS in H. lia. }
    destruct (O m m2 Em S2) as (m' & Ex & T' & S' & K' & M').
    { pose proof (l_r _ _ _ _ _ _ _ _ R2 13%nat ltac:(lia)) as H. cbn [nth K7 holdsk] in H. lia. }
    { intros j Hj. rewrite <- V1 by exact Hj. apply wd_ext; [lia|]. intros x Hx. apply K, X. lia. }
    exists (k + 1)%nat, m'. rewrite Go. split; [apply Ex|]. split; [now rewrite T', T, app_assoc|]. split; [exact S'|]. split; [exact K'|]. split.
    - unfold bytes_at at 1. rewrite M'. change (map (fun i => me m2 (sb + N.of_nat i)) (seq 0 50)) with (bytes_at m2 sb 50).
      replace (bytes_at m sb 50) with (bytes_at m1 sb 50).
      2: { apply bytes_at_ext. intros i Hi. apply F1. intros H. apply (Asf (sb + N.of_nat i)). lia. }
      apply (core KArmPerm.armv7m KArmPermProof.mid7 n m1 m2 sb (sp - 96) e2 armv7m_ok armv7m_term Hn (proj2 S1) (proj2 S2) Ea).
      intros l Hl. rewrite (l_S _ _ _ _ _ _ _ _ R2 l Hl), nth_upd_nth. destruct (Nat.eqb_spec l 63); [lia|reflexivity].
    - intros x Hx. rewrite M'. pose proof (Hx sb 50 ltac:(cbn; auto)) as H1. pose proof (Hx (sp - 96) 96 ltac:(cbn; auto)) as H2.
      rewrite K; [apply F1; lia|]. intros [H | H]; unfold inS in *; lia.
  Qed.

  Lemma in7 l : exists evs, forall m, sane m -> rf m 13%nat = sp -> rf m 0%nat = sb ->
    exists m1, runs_is true rd wr tab [IPush save7; SUBi 13 13 (2 * 25 + 6)] (see m (In l)) = Some m1 /\ sane m1 /\ tc m1 = evs ++ tc m /\
      (forall r, (r < 13)%nat -> rf m1 r = rf m r) /\ rf m1 13%nat = sp - 96 /\ (forall x, ~ sp - 96 <= x < sp -> me m1 x = me m x) /\
      (forall j, (j < 10)%nat -> wd (me m1) (sp - 40 + 4 * N.of_nat j) = rf m (nth j save7 0%nat)).
  Proof.
    exists (st_ev 10 (sp - 40) ++ [In l]). intros m Sm Em E0.
    destruct (push_gen true rd wr tab save7 sp (see m (In l)) Sm Em Hsp) as (m1 & E1 & R1 & S1 & T1 & F1 & V1).
    { change (N.of_nat (length save7)) with 10. lia. }
    { change (N.of_nat (length save7)) with 10. intros x Hx. apply Wf. lia. }
    { intros H. repeat (destruct H as [H|H]; [discriminate|]). contradiction. }
    change (4 * N.of_nat (length save7)) with 40 in *. change (length save7) with 10%nat in *.
    cbn [runs_is]. rewrite E1. cbn [run1 SUBi opnd alu]. change (2 * 25 + 6) with 56. rewrite R1. unfold set. cbn [Nat.eqb].
    rewrite w32_sub by lia. eexists. split; [reflexivity|]. split; [apply sane_setr; [exact S1|lia]|].
    cbn [setr rf me tc]. split; [rewrite T1; cbn [see tc]; now rewrite <- app_assoc|].
    split. { intros r Hr. rewrite R1. unfold set. destruct (Nat.eqb_spec r 13); [lia|reflexivity]. }
    split; [unfold set; cbn [Nat.eqb]; lia|]. split; [intros x Hx; rewrite F1; [reflexivity|lia]|].
    intros j Hj. now rewrite V1.
  Qed.

  Lemma nrounds7 n : (0 < n <= 20)%nat ->
    call true rd wr tab armv7m_s Permute_Nrounds7
      (fun m => rf m 0%nat = sb /\ rf m 1%nat = N.of_nat n /\ rf m 13%nat = sp /\ has_table tab table7 m) (post n).
  Proof.
    intros Hn. destruct (rest7 n Hn) as (ev2 & R). destruct (in7 24) as (ev1 & I). exists (ev2 ++ ev1). intros m Sm (E0 & E1 & E13 & HT).
    destruct (I m Sm E13 E0) as (m1 & X1 & S1 & T1 & F1 & P1 & M1 & V1).
    set (m2 := setr (setr m1 8 (w32 (tab + 40))) 8 (tab + 2 * N.of_nat (20 - n))).
    set (m3 := setf (setr m2 1 (w32 (N.shiftl (N.of_nat n) 31))) (Nat.even n) (N.testbit (N.of_nat n) (32 - 31))).
    assert (X3 : runs_is true rd wr tab (fst (nth 24 armv7m_s ([], BxLr))) (see m (In 24)) = Some m3).
    { change (fst (nth 24 armv7m_s ([], BxLr))) with ([IPush save7; SUBi 13 13 (2 * 25 + 6)] ++ [IAdr 8 40; IDp false DSub 8 8 (Sf 1 (LSL 1)); LSLSi 1 1 31]).
      rewrite runs_app, X1. cbn [runs_is run1 LSLSi opnd alu shifted setr rf]. unfold set. cbn [Nat.eqb]. rewrite F1, E1 by lia.
      rewrite shl31, shl1 by lia. rewrite (w32_id (tab + 40)) by lia. rewrite w32_sub by lia.
      unfold m3, m2. do 3 f_equal. rewrite (w32_id (tab + 40)) by lia. f_equal. lia. }
    assert (Go : goes true rd wr tab armv7m_s 24 m (if Nat.even n then 27 else 25) m3).
    { pose proof (goes_br true rd wr tab armv7m_s 24 (fst (nth 24 armv7m_s ([], BxLr))) EQ 27 25 m m3 eq_refl X3) as Go. exact Go. }
    destruct (R m m3 Sm E13 HT) as (fuel & m' & Ex & T' & S' & K' & Po).
    { split; [|split; [|split; [|split; [|split]]]].
      - unfold m3, m2. apply sane_setf. repeat apply sane_setr; auto; try apply w32_lt. lia.
      - cbn [m3 m2 setf setr rf]. unfold set. cbn [Nat.eqb]. rewrite F1 by lia. exact E0.
      - reflexivity.
      - cbn [m3 m2 setf setr rf]. unfold set. cbn [Nat.eqb]. exact P1.
      - exact M1.
      - exact V1. }
    destruct Go as [k Go]. exists (k + fuel)%nat, m'. rewrite Go. split; [exact Ex|]. split; [|auto].
    rewrite T'. cbn [m3 m2 setf setr tc]. now rewrite T1, app_assoc.
  Qed.

  Lemma rounds20_7 :
    call true rd wr tab armv7m_s Permute_20rounds7 (fun m => rf m 0%nat = sb /\ rf m 13%nat = sp /\ has_table tab table7 m) (post 20).
  Proof.
    destruct (rest7 20 ltac:(lia)) as (ev2 & R). destruct (in7 26) as (ev1 & I). exists (ev2 ++ ev1). intros m Sm (E0 & E13 & HT).
    destruct (I m Sm E13 E0) as (m1 & X1 & S1 & T1 & F1 & P1 & M1 & V1).
    set (m3 := setr m1 8 (w32 (tab + 0))).
    assert (X3 : runs_is true rd wr tab (fst (nth 26 armv7m_s ([], BxLr))) (see m (In 26)) = Some m3).
    { change (fst (nth 26 armv7m_s ([], BxLr))) with ([IPush save7; SUBi 13 13 (2 * 25 + 6)] ++ [IAdr 8 0]). rewrite runs_app, X1. reflexivity. }
    assert (Go : goes true rd wr tab armv7m_s 26 m 27 m3) by (apply (goes_jmp true rd wr tab armv7m_s 26 _ 27 m m3 eq_refl X3)).
    destruct (R m m3 Sm E13 HT) as (fuel & m' & Ex & T' & S' & K' & Po).
    { split; [|split; [|split; [|split; [|split]]]].
      - apply sane_setr; [exact S1|apply w32_lt].
      - cbn [m3 setr rf]. unfold set. cbn [Nat.eqb]. rewrite F1 by lia. exact E0.
      - cbn [m3 setr rf]. unfold set. cbn [Nat.eqb]. rewrite w32_id by lia. reflexivity.
      - cbn [m3 setr rf]. unfold set. cbn [Nat.eqb]. exact P1.
      - exact M1.
      - exact V1. }
    destruct Go as [k Go]. exists (k + fuel)%nat, m'. rewrite Go. split; [exact Ex|]. split; [|auto].
    rewrite T'. cbn [m3 setr tc]. now rewrite T1, app_assoc.
  Qed.
End P7.
