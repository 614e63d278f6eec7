(* KeccakP-400-armv7m-le-gcc.s on a machine that does not accept unaligned words. Proofs only. *)
From Verif Require Import Base Prog SpecPerm Words ArmIsa ArmAsm VocabAsm ArmSim ArmLoop.
Open Scope N_scope.

Section Trap.
  Variables (rd wr : N -> bool) (tab : N).
  Notation go := (runs_is false rd wr tab).

  Lemma two_words v : w32 (v + 0) mod 4 = 0 -> w32 (v + 10) mod 4 = 0 -> False.
  Proof. unfold w32. change (2 ^ 32) with 4294967296. intros H1 H2. lia. Qed.

  Lemma load_al n a m v m' : load rd (al false n) n a m = Some (v, m') -> a mod N.of_nat n = 0 /\ rf m' = rf m.
  Proof.
    unfold load, al. intros E. destruct (N.eqb_spec (a mod N.of_nat n) 0) as [H | H]; cbn [andb] in E; [|discriminate].
    destruct (forallb rd (addrs a n)); [|discriminate]. apply some_inj in E. injection E as _ <-. split; [exact H|reflexivity].
  Qed.

  (* the first three instructions of KeccakRound *)
  Lemma first3 sIn is m : sIn <> 1%nat -> sIn <> 9%nat -> go (IBfi16 r9 r10 :: LDR r1 sIn 0 :: LDR r6 sIn 10 :: is) m = None.
  Proof.
    intros H1 H9. set (m1 := setr m 9 (rf m 9%nat mod 2 ^ 16 + 2 ^ 16 * (rf m 10%nat mod 2 ^ 16))).
    change (go (IBfi16 r9 r10 :: LDR r1 sIn 0 :: LDR r6 sIn 10 :: is) m) with (go (LDR r1 sIn 0 :: LDR r6 sIn 10 :: is) m1).
    assert (E1 : rf m1 sIn = rf m sIn) by (cbn [m1 setr rf]; unfold set; destruct (Nat.eqb_spec sIn 9); [contradiction|reflexivity]).
    cbn [runs_is run1 LDR].
    destruct (load rd (al false 4) 4 (w32 (rf m1 sIn + 0)) m1) as [[v m2]|] eqn:L1; [|reflexivity].
    destruct (load_al _ _ _ _ _ L1) as [A1 R2]. change (N.of_nat 4) with 4 in A1.
    assert (E2 : rf (setr m2 r1 v) sIn = rf m1 sIn) by (cbn [setr rf]; rewrite R2; unfold set, r1; destruct (Nat.eqb_spec sIn 1); [contradiction|reflexivity]).
    rewrite E2.
    destruct (load rd (al false 4) 4 (w32 (rf m1 sIn + 10)) (setr m2 r1 v)) as [[v3 m3]|] eqn:L2; [|reflexivity].
    destruct (load_al _ _ _ _ _ L2) as [A2 _]. change (N.of_nat 4) with 4 in A2. exfalso. exact (two_words _ A1 A2).
  Qed.

  Lemma round_none sOut sIn is m : sIn <> 1%nat -> sIn <> 9%nat -> go (KeccakRound7 sOut sIn ++ is) m = None.
  Proof. intros H1 H9. exact (first3 sIn _ m H1 H9). Qed.

  Notation never := (faults false rd wr tab armv7m_s).
  Lemma never_none l is t : nth_error armv7m_s l = Some (is, t) -> (forall m, go is m = None) -> never l.
  Proof. intros E H. exists 1%nat. intros fuel m. cbn [Nat.add exec]. now rewrite E, H. Qed.
  Lemma never_jmp l is l' : nth_error armv7m_s l = Some (is, Jmp l') -> never l' -> never l.
  Proof. intros E [n H]. exists (S n). intros fuel m. cbn [Nat.add exec]. rewrite E. destruct (go is (see m (In l))) as [m1|]; [apply H|reflexivity]. Qed.
  Lemma never_br l is b l1 l2 : nth_error armv7m_s l = Some (is, Br b l1 l2) -> never l1 -> never l2 -> never l.
  Proof.
    intros E [n1 H1] [n2 H2]. exists (S (n1 + n2)). intros fuel m. cbn [Nat.add exec]. rewrite E. destruct (go is (see m (In l))) as [m1|]; [|reflexivity].
    destruct (holds b m1).
    - rewrite <- Nat.add_assoc. apply H1.
    - rewrite (Nat.add_comm n1 n2), <- Nat.add_assoc. apply H2.
  Qed.

  Lemma never28 : never 28%nat.
  Proof. apply (never_none 28 (KeccakRound7 sp r0 ++ []) (Jmp 29)); [reflexivity|]. intros m. apply round_none; discriminate. Qed.
  Lemma never29 : never 29%nat.
  Proof. apply (never_none 29 (KeccakRound7 r0 sp ++ [LDRH r3 r8 0; ICmp r3 (Im 0)]) (Br NE 28 30) eq_refl). intros m. apply round_none; discriminate. Qed.
  Lemma never27 : never 27%nat.
  Proof. apply (never_jmp 27 even7 28 eq_refl), never28. Qed.
  Lemma never25 : never 25%nat.
  Proof. apply (never_jmp 25 odd7 29 eq_refl), never29. Qed.
  Lemma trap_nrounds : never Permute_Nrounds7.
  Proof. exact (never_br 24 _ EQ 27 25 eq_refl never27 never25). Qed.
  Lemma trap_20rounds : never Permute_20rounds7.
  Proof. exact (never_jmp 26 _ 27 eq_refl never27). Qed.
End Trap.
