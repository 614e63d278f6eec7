(* The functions of the ARM assembler files that move bytes: KeccakP400_Initialize, AddByte, AddBytes, OverwriteBytes, OverwriteWithZeroes,
   ExtractBytes, ExtractAndAddBytes. Proofs only. *)
From Verif Require Import Base Prog SpecPerm Words ArmIsa ArmAsm VocabAsm ArmSim ArmLoop ArmFun ArmPermFun.
Open Scope N_scope.

(* ---------- a loop over bytes from the last to the first ---------- *)

Section Down.
  Variables (una : bool) (rd wr : N -> bool) (tab : N) (c : code) (l lx : nat) (body : list instr) (temps : list nat).
  Variables (P : mc -> Prop) (A : N) (len : nat) (val : mc -> nat -> N).
  Hypothesis Hl : nth_error c l = Some (body ++ [SUBSi r3 r3 1], Br CS l lx).
  Hypothesis Hlen : N.of_nat len < 2 ^ 32.

  Record J (n : nat) (m0 m : mc) : Prop := {
    j_s : sane m;
    j_r : forall r, r <> 3%nat -> ~ List.In r temps -> rf m r = rf m0 r;
    j_v : forall i, (n <= i < len)%nat -> me m (A + N.of_nat i) = val m0 i;
    j_f : forall x, ~ A + N.of_nat n <= x < A + N.of_nat len -> me m x = me m0 x }.

  Hypothesis HB : forall i, (i < len)%nat -> exists evs, forall m0 m, P m0 -> J (S i) m0 m -> rf m 3%nat = N.of_nat i ->
    exists m1, runs_is una rd wr tab body m = Some m1 /\ tc m1 = evs ++ tc m /\ (forall r, rf m1 r < 2 ^ 32) /\ (forall x, me m1 x < 256) /\
      (forall r, ~ List.In r temps -> rf m1 r = rf m r) /\ (forall x, me m1 x = if x =? A + N.of_nat i then val m0 i else me m x).
  Hypothesis H3 : ~ List.In 3%nat temps.

  Lemma J_any n m0 m m' : J n m0 m -> sane m' -> (forall r, r <> 3%nat -> rf m' r = rf m r) -> me m' = me m -> J n m0 m'.
  Proof.
    intros [S R V F] S' R' M'. constructor; auto.
    - intros r Hr Hn. rewrite R' by exact Hr. auto.
    - intros i Hi. rewrite M'. auto.
    - intros x Hx. rewrite M'. auto.
  Qed.

  Lemma down n : (n < len)%nat -> exists evs, forall m0 m, P m0 -> J (S n) m0 m -> rf m 3%nat = N.of_nat n ->
    exists m', goes una rd wr tab c l m lx m' /\ tc m' = evs ++ tc m /\ J 0 m0 m'.
  Proof.
    induction n as [|n IH]; intros Hn; destruct (HB _ Hn) as (ev1 & B).
    - exists (ev1 ++ [In l]). intros m0 m HP HJ E3.
      assert (HJ' : J _ m0 (see m (In l))) by (apply (J_any _ m0 m _ HJ); [apply (j_s _ _ _ HJ)|reflexivity|reflexivity]).
      destruct (B m0 (see m (In l)) HP HJ' E3) as (m1 & X1 & T1 & S1 & S1' & R1 & M1).
      set (m2 := setf (setr m1 3 (w32 (0 + 2 ^ 32 - 1))) (w32 (0 + 2 ^ 32 - 1) =? 0) (1 <=? 0)).
      assert (X2 : runs_is una rd wr tab (body ++ [SUBSi r3 r3 1]) (see m (In l)) = Some m2).
      { rewrite runs_app, X1. cbn [runs_is run1 SUBSi opnd alu]. rewrite R1 by exact H3. cbn [see rf]. unfold r3. rewrite E3. reflexivity. }
      exists m2. split; [exact (goes_br una rd wr tab c l _ CS l lx m m2 Hl X2)|].
      split. { cbn [m2 setf setr tc]. rewrite T1. cbn [see tc]. now rewrite <- app_assoc. }
      constructor.
      + apply sane_setf, sane_setr; [split; assumption|apply w32_lt].
      + intros r Hr Ht. cbn [m2 setf setr rf]. unfold set. destruct (Nat.eqb_spec r 3); [contradiction|]. rewrite R1 by exact Ht. apply (j_r _ _ _ HJ); auto.
      + intros i Hi. cbn [m2 setf setr me]. rewrite M1. destruct (N.eqb_spec (A + N.of_nat i) (A + N.of_nat 0)) as [E|E].
        * replace i with 0%nat by lia. reflexivity.
        * apply (j_v _ _ _ HJ). lia.
      + intros x Hx. cbn [m2 setf setr me]. rewrite M1. destruct (N.eqb_spec x (A + N.of_nat 0)) as [E|E]; [exfalso; lia|].
        apply (j_f _ _ _ HJ). lia.
    - destruct (IH ltac:(lia)) as (ev2 & IH'). exists (ev2 ++ ev1 ++ [In l]). intros m0 m HP HJ E3.
      assert (HJ' : J _ m0 (see m (In l))) by (apply (J_any _ m0 m _ HJ); [apply (j_s _ _ _ HJ)|reflexivity|reflexivity]).
      destruct (B m0 (see m (In l)) HP HJ' E3) as (m1 & X1 & T1 & S1 & S1' & R1 & M1).
      set (m2 := setf (setr m1 3 (N.of_nat n)) (N.of_nat n =? 0) true).
      assert (X2 : runs_is una rd wr tab (body ++ [SUBSi r3 r3 1]) (see m (In l)) = Some m2).
      { rewrite runs_app, X1. cbn [runs_is run1 SUBSi opnd alu]. rewrite R1 by exact H3. cbn [see rf]. unfold r3. rewrite E3. rewrite w32_sub by lia.
        replace (N.of_nat (S n) - 1) with (N.of_nat n) by lia. destruct (N.leb_spec 1 (N.of_nat (S n))); [reflexivity|lia]. }
      destruct (IH' m0 m2 HP) as (m' & Go & T' & J').
      + constructor.
        * apply sane_setf, sane_setr; [split; assumption|lia].
        * intros r Hr Ht. cbn [m2 setf setr rf]. unfold set. destruct (Nat.eqb_spec r 3); [contradiction|]. rewrite R1 by exact Ht. apply (j_r _ _ _ HJ); auto.
        * intros i Hi. cbn [m2 setf setr me]. rewrite M1. destruct (N.eqb_spec (A + N.of_nat i) (A + N.of_nat (S n))) as [E|E].
          -- replace i with (S n) by lia. reflexivity.
          -- apply (j_v _ _ _ HJ). lia.
        * intros x Hx. cbn [m2 setf setr me]. rewrite M1. destruct (N.eqb_spec x (A + N.of_nat (S n))) as [E|E]; [exfalso; lia|].
          apply (j_f _ _ _ HJ). lia.
      + reflexivity.
      + exists m'. split; [eapply goes_trans; [exact (goes_br una rd wr tab c l _ CS l lx m m2 Hl X2)|exact Go]|].
        split; [|exact J']. rewrite T'. cbn [m2 setf setr tc]. rewrite T1. cbn [see tc]. now rewrite <- !app_assoc.
  Qed.

  (* from the state m0 before the first turn *)
  Lemma down0 : (0 < len)%nat -> exists evs, forall m0, sane m0 -> P m0 -> rf m0 3%nat = N.of_nat (len - 1) ->
    exists m', goes una rd wr tab c l m0 lx m' /\ tc m' = evs ++ tc m0 /\ J 0 m0 m'.
  Proof.
    intros H. destruct (down (len - 1) ltac:(lia)) as (evs & D). exists evs. intros m0 S0 HP E. apply D; auto. constructor; auto; intros; lia.
  Qed.
End Down.

(* ---------- single functions ---------- *)

Ltac reg := unfold r0, r1, r2, r3, r4, r5, lr; cbn [see setm setf setr rf me fc fz]; unfold set; cbn [Nat.eqb see setm setf setr rf me fc fz];
  unfold set; cbn [Nat.eqb see setm setf setr rf me fc fz].

Lemma lxor_mod8 a b : N.lxor a b mod 256 = N.lxor (a mod 256) (b mod 256).
Proof.
  change 256 with (2 ^ 8). apply N.bits_inj. intros i. rewrite N.lxor_spec. destruct (N.lt_ge_cases i 8) as [H | H].
  - now rewrite !N.mod_pow2_bits_low, N.lxor_spec by exact H.
  - now rewrite !N.mod_pow2_bits_high by exact H.
Qed.

Section Fun.
  Variables (una : bool) (rd wr : N -> bool) (tab : N) (tail : code).
  Notation prg := (common ++ tail).

  Lemma ldrb_step d b i m a : rf m b + rf m i = a -> a < 2 ^ 32 -> rd a = true ->
    run1 una rd wr tab (ILdrbR d b i) m = Some (setr (see m (Ld a 1)) d (me m a)).
  Proof. intros E H Hr. cbn [run1]. rewrite E, w32_id by exact H. now rewrite ldb. Qed.
  Lemma strb_step s b i m a : rf m b + rf m i = a -> a < 2 ^ 32 -> wr a = true ->
    run1 una rd wr tab (IStrbR s b i) m = Some (see (setm m (putn (me m) a 1 (rf m s))) (St a 1)).
  Proof. intros E H Hr. cbn [run1]. rewrite E, w32_id by exact H. now rewrite stb. Qed.
  Lemma eors_step d n k m : run1 una rd wr tab (EORS d n k) m =
    Some (setf (setr m d (N.lxor (rf m n) (rf m k))) (N.lxor (rf m n) (rf m k) =? 0) (fc m)).
  Proof. reflexivity. Qed.

  Lemma exec_bx c l is m m' : nth_error c l = Some (is, BxLr) -> runs_is una rd wr tab is (see m (In l)) = Some m' ->
    forall f, exec una rd wr tab (S f) c l m = Back (rf m' 14%nat) m'.
  Proof. intros E R f. cbn [exec]. now rewrite E, R. Qed.

  Lemma static_ok : call una rd wr tab prg StaticInitialize (fun _ => True) (fun m m' => untouched m m' []).
  Proof.
    exists [In 0]. intros m S _. exists 1%nat, (see m (In 0)). split; [apply (exec_bx prg 0 [] m (see m (In 0)) eq_refl eq_refl)|].
    split; [reflexivity|]. split; [exact S|]. split; [intros r _; reflexivity|intros x _; reflexivity].
  Qed.

  Lemma addbyte_ok s off : s + off < 2 ^ 32 -> ok rd (s + off) 1 -> ok wr (s + off) 1 ->
    call una rd wr tab prg AddByte (fun m => rf m 0%nat = s /\ rf m 2%nat = off)
      (fun m m' => me m' (s + off) = N.lxor (me m (s + off)) (rf m 1%nat mod 256) /\ untouched m m' [(s + off, 1)]).
  Proof.
    intros H Hr Hw. exists [St (s + off) 1; Ld (s + off) 1; In 2]. intros m S (E0 & E2).
    set (v := N.lxor (me m (s + off)) (rf m 1%nat)).
    assert (Hv : v < 2 ^ 32).
    { apply (lxor_lt _ _ 32); [|apply S]. eapply N.lt_le_trans; [apply S|discriminate]. }
    set (m1 := setf (setr (setr (see (see m (In 2)) (Ld (s + off) 1)) 3 (me m (s + off))) 3 v) (v =? 0) (fc m)).
    set (m2 := see (setm m1 (putn (me m1) (s + off) 1 v)) (St (s + off) 1)).
    assert (X : runs_is una rd wr tab [ILdrbR r3 r0 r2; EORS r3 r3 r1; IStrbR r3 r0 r2] (see m (In 2)) = Some m2).
    { cbn [runs_is]. rewrite (ldrb_step _ _ _ _ (s + off)); [|reg; lia|exact H|apply Hr; lia]. rewrite eors_step.
      rewrite (strb_step _ _ _ _ (s + off)); [|reg; lia|exact H|apply Hw; lia]. reflexivity. }
    exists 1%nat, m2. split; [exact (exec_bx prg 2 _ m m2 eq_refl X 0%nat)|]. split; [reflexivity|]. split.
    { split; [|intros a; apply putn_byte; [auto|change (N.of_nat 1) with 1; lia|apply S]]. intros r. cbn [m2 m1 see setm setf setr rf]. unfold set.
      destruct (r =? 3)%nat; [exact Hv|]. apply S. }
    split.
    { intros r Hr'. cbn [m2 m1 see setm setf setr rf]. unfold set. destruct (Nat.eqb_spec r 3) as [->|]; [|reflexivity].
      repeat (destruct Hr' as [Hr' | Hr']; [discriminate|]). contradiction. }
    cbn [m2 m1 see setm setf setr me]. split.
    - rewrite putn1 by exact H. unfold put1. rewrite N.eqb_refl. unfold v. rewrite lxor_mod8. f_equal. apply N.mod_small, S.
    - intros x Hx. change (me m2 x) with (putn (me m) (s + off) 1 v x). rewrite putn1 by exact H. unfold put1.
      destruct (N.eqb_spec x (s + off)); [|reflexivity].
      exfalso. apply (Hx (s + off) 1); [cbn; auto|]. lia.
  Qed.

  Lemma putn1' m a v w : a < 2 ^ 32 -> v mod 256 = w -> forall x, putn (me m) a 1 v x = if x =? a then w else me m x.
  Proof. intros H E x. rewrite putn1 by exact H. unfold put1. now rewrite E. Qed.

  Lemma small8 x : x < 256 -> x < 2 ^ 32.
  Proof. intros H. eapply N.lt_le_trans; [exact H|discriminate]. Qed.

  (* SUBSi r3 r3 1 at the entry of AddBytes, OverwriteBytes and ExtractBytes *)
  Lemma sub1 n m : rf m 3%nat = N.of_nat n -> (0 < n)%nat -> N.of_nat n < 2 ^ 32 ->
    run1 una rd wr tab (SUBSi r3 r3 1) m = Some (setf (setr m 3 (N.of_nat (n - 1))) (N.of_nat (n - 1) =? 0) true).
  Proof.
    intros E H1 H2. cbn [run1 SUBSi opnd alu]. unfold r3. rewrite E, w32_sub by lia. replace (N.of_nat n - 1) with (N.of_nat (n - 1)) by lia.
    destruct (N.leb_spec 1 (N.of_nat n)); [reflexivity|lia].
  Qed.
  Lemma sub1_0 m : rf m 3%nat = 0 -> run1 una rd wr tab (SUBSi r3 r3 1) m = Some (setf (setr m 3 (2 ^ 32 - 1)) false false).
  Proof. intros E. cbn [run1 SUBSi opnd alu]. unfold r3. rewrite E. reflexivity. Qed.

  (* a length of 0: the function returns at once *)
  Lemma none l lx l1 m (Q : mc -> Prop) : nth_error prg l = Some ([SUBSi r3 r3 1], Br CC lx l1) -> nth_error prg lx = Some ([], BxLr) ->
    sane m -> rf m 3%nat = 0 -> (forall m', me m' = me m -> Q m') ->
    exists fuel m', exec una rd wr tab fuel prg l m = Back (rf m 14%nat) m' /\ tc m' = [In lx; In l] ++ tc m /\ sane m' /\ kept m m' /\ Q m'.
  Proof.
    intros E1 E2 S E3 HQ. set (m1 := setf (setr (see m (In l)) 3 (2 ^ 32 - 1)) false false). exists 2%nat, (see m1 (In lx)). split.
    { cbn [exec]. rewrite E1. cbn [runs_is]. rewrite sub1_0 by exact E3. fold m1. cbn [holds]. cbn [m1 setf fc negb]. fold m1. rewrite E2. reflexivity. }
    split; [reflexivity|]. split; [apply sane_see; unfold m1; apply sane_setf, sane_setr; [exact S|reflexivity]|].
    split; [|apply HQ; reflexivity]. intros r Hr. cbn [m1 see setf setr rf]. unfold set. destruct (Nat.eqb_spec r 3) as [->|]; [|reflexivity].
    repeat (destruct Hr as [Hr | Hr]; [discriminate|]). contradiction.
  Qed.

  (* OverwriteBytes and ExtractBytes: bytes from A = rf q + .. to B, both behind one addition *)
  Section Copy.
    Variables (s off d src dst : N) (len : nat) (l ps pd : nat).
    Hypothesis E1 : nth_error prg l = Some ([SUBSi r3 r3 1], Br CC (l + 3) (l + 1)).
    Hypothesis E2 : nth_error prg (l + 1) = Some ([ADDS r0 r0 r2], Jmp (l + 2)).
    Hypothesis E3 : nth_error prg (l + 2) = Some ([ILdrbR r2 ps r3; IStrbR r2 pd r3] ++ [SUBSi r3 r3 1], Br CS (l + 2) (l + 3)).
    Hypothesis E4 : nth_error prg (l + 3) = Some ([], BxLr).
    Hypothesis Hps : (ps = 0%nat /\ src = s + off) \/ (ps = 1%nat /\ src = d).
    Hypothesis Hpd : (pd = 0%nat /\ dst = s + off) \/ (pd = 1%nat /\ dst = d).
    Hypothesis Hso : s + off < 2 ^ 32.
    Hypothesis Hs : src + N.of_nat len < 2 ^ 32. Hypothesis Hd : dst + N.of_nat len < 2 ^ 32.
    Hypothesis Rs : ok rd src (N.of_nat len). Hypothesis Wd : ok wr dst (N.of_nat len). Hypothesis Ap : apart src (N.of_nat len) dst (N.of_nat len).

    Lemma copy_ok : call una rd wr tab prg l (fun m => rf m 0%nat = s /\ rf m 1%nat = d /\ rf m 2%nat = off /\ rf m 3%nat = N.of_nat len)
      (fun m m' => bytes_at m' dst len = bytes_at m src len /\ untouched m m' [(dst, N.of_nat len)]).
    Proof.
      destruct (Nat.eq_dec len 0) as [L0 | L0].
      { exists [In (l + 3); In l]. intros m S (_ & _ & _ & R3). apply (none l (l + 3) (l + 1) m _ E1 E4 S); [now rewrite R3, L0|].
        intros m' M. rewrite L0. split; [reflexivity|]. intros x _. now rewrite M. }
      destruct (down0 una rd wr tab prg (l + 2) (l + 3) [ILdrbR r2 ps r3; IStrbR r2 pd r3] [2%nat]
        (fun m => rf m 0%nat = s + off /\ rf m 1%nat = d) dst len (fun m i => me m (src + N.of_nat i)) E3 ltac:(lia)) as (ev & D).
      { intros i Hi. exists [St (dst + N.of_nat i) 1; Ld (src + N.of_nat i) 1]. intros m0 m (P0 & P1) HJ R3.
        pose proof (j_s _ _ _ _ _ _ _ HJ) as Sm.
        assert (Ps : rf m ps = src).
        { rewrite (j_r _ _ _ _ _ _ _ HJ); destruct Hps as [[-> ->] | [-> ->]]; auto; intros [H | []]; discriminate. }
        assert (Pd : rf m pd = dst /\ pd <> 2%nat).
        { split; [rewrite (j_r _ _ _ _ _ _ _ HJ)|]; destruct Hpd as [[-> ->] | [-> ->]]; auto; intros [H | []]; discriminate. }
        destruct Pd as [Pd Pd2].
        set (v := me m (src + N.of_nat i)). set (m1 := setr (see m (Ld (src + N.of_nat i) 1)) 2 v).
        assert (Ev : v = me m0 (src + N.of_nat i)).
        { unfold v. rewrite (j_f _ _ _ _ _ _ _ HJ); [reflexivity|]. intros H. apply (Ap (src + N.of_nat i)). lia. }
        exists (see (setm m1 (putn (me m1) (dst + N.of_nat i) 1 v)) (St (dst + N.of_nat i) 1)). split.
        { cbn [runs_is]. rewrite (ldrb_step _ _ _ _ (src + N.of_nat i)); [|unfold r3; rewrite R3, Ps; reflexivity|lia|apply Rs; lia].
          change (setr (see m (Ld (src + N.of_nat i) 1)) r2 (me m (src + N.of_nat i))) with m1.
          rewrite (strb_step _ _ _ _ (dst + N.of_nat i)); [reflexivity| |lia|apply Wd; lia].
          cbn [m1 setr see rf]. unfold set, r3. destruct (Nat.eqb_spec pd 2); [contradiction|]. cbn [Nat.eqb]. now rewrite R3, Pd. }
        split; [reflexivity|]. split.
        { intros r. cbn [see setm m1 setr rf]. unfold set. destruct (r =? 2)%nat; [apply small8; apply Sm|apply Sm]. }
        split; [intros x; apply putn_byte; [auto|change (N.of_nat 1) with 1; lia|apply Sm]|]. split.
        { intros r Hr. cbn [see setm m1 setr rf]. unfold set. destruct (Nat.eqb_spec r 2) as [->|]; [elim Hr; now left|reflexivity]. }
        apply (putn1' m1); [lia|]. rewrite Ev. apply N.mod_small. rewrite <- Ev. apply Sm. }
      { intros [H | []]; discriminate. }
      { lia. }
      exists (In (l + 3) :: ev ++ [In (l + 1); In l]). intros m S (R0 & R1 & R2 & R3).
      set (m1 := setf (setr (see m (In l)) 3 (N.of_nat (len - 1))) (N.of_nat (len - 1) =? 0) true).
      assert (X1 : runs_is una rd wr tab [SUBSi r3 r3 1] (see m (In l)) = Some m1) by (cbn [runs_is]; rewrite (sub1 len) by (exact R3 || lia); reflexivity).
      pose proof (goes_br una rd wr tab prg l _ CC (l + 3) (l + 1) m m1 E1 X1) as G1. cbn [holds m1 setf fc negb] in G1. fold m1 in G1.
      set (m2 := setf (setr (see m1 (In (l + 1))) 0 (s + off)) (s + off =? 0) (2 ^ 32 <=? s + off)).
      assert (X2 : runs_is una rd wr tab [ADDS r0 r0 r2] (see m1 (In (l + 1))) = Some m2).
      { cbn [runs_is run1 ADDS opnd alu]. reg. unfold m1. reg. rewrite R0, R2, w32_id by exact Hso. reflexivity. }
      pose proof (goes_jmp una rd wr tab prg (l + 1) _ (l + 2) m1 m2 E2 X2) as G2.
      assert (S2 : sane m2).
      { unfold m2. apply sane_setf, sane_setr; [|exact Hso]. apply sane_see. unfold m1. apply sane_setf, sane_setr; [exact S|lia]. }
      destruct (D m2 S2) as (m3 & G3 & T3 & J3).
      { unfold m2, m1. reg. auto. } { reflexivity. }
      destruct (goes_trans _ _ _ _ _ _ _ _ _ _ _ G1 (goes_trans _ _ _ _ _ _ _ _ _ _ _ G2 G3)) as [k Go].
      exists (k + 1)%nat, (see m3 (In (l + 3))). rewrite Go.
      assert (K3 : forall r, List.In r [4; 5; 6; 7; 8; 9; 10; 11; 13; 14]%nat -> rf m3 r = rf m r).
      { intros r Hr. rewrite (j_r _ _ _ _ _ _ _ J3).
        - unfold m2, m1. cbn [setf setr see rf]. unfold set.
          destruct (Nat.eqb_spec r 0) as [->|]; [exfalso; cbn [List.In] in Hr; lia|]. destruct (Nat.eqb_spec r 3) as [->|]; [exfalso; cbn [List.In] in Hr; lia|]. reflexivity.
        - intros ->. cbn [List.In] in Hr. lia.
        - intros [H | []]. subst r. cbn [List.In] in Hr. lia. }
      split. { cbn [exec]. rewrite E4. cbn [runs_is]. cbn [see rf]. rewrite K3 by (cbn [List.In]; lia). reflexivity. }
      split. { cbn [see tc]. rewrite T3. unfold m2, m1. cbn [setf setr see tc]. rewrite <- app_comm_cons, <- app_assoc. reflexivity. }
      split; [apply sane_see, (j_s _ _ _ _ _ _ _ J3)|].
      split; [intros r Hr; apply K3; cbn [List.In] in *; lia|]. split.
      - apply bytes_at_is; [apply bytes_at_length|]. intros i Hi. cbn [see me]. rewrite (j_v _ _ _ _ _ _ _ J3) by lia. now rewrite nth_bytes_at.
      - intros x Hx. cbn [see me]. rewrite (j_f _ _ _ _ _ _ _ J3); [reflexivity|]. specialize (Hx dst (N.of_nat len) ltac:(cbn; auto)). lia.
    Qed.
  End Copy.

  Lemma overwrite_ok s off d len : s + off + N.of_nat len < 2 ^ 32 -> d + N.of_nat len < 2 ^ 32 ->
    ok rd d (N.of_nat len) -> ok wr (s + off) (N.of_nat len) -> apart d (N.of_nat len) (s + off) (N.of_nat len) ->
    call una rd wr tab prg OverwriteBytes (fun m => rf m 0%nat = s /\ rf m 1%nat = d /\ rf m 2%nat = off /\ rf m 3%nat = N.of_nat len)
      (fun m m' => bytes_at m' (s + off) len = bytes_at m d len /\ untouched m m' [(s + off, N.of_nat len)]).
  Proof. intros. apply (copy_ok s off d d (s + off) len 8 r1 r0); auto; lia. Qed.
  Lemma extract_ok s off d len : s + off + N.of_nat len < 2 ^ 32 -> d + N.of_nat len < 2 ^ 32 ->
    ok rd (s + off) (N.of_nat len) -> ok wr d (N.of_nat len) -> apart (s + off) (N.of_nat len) d (N.of_nat len) ->
    call una rd wr tab prg ExtractBytes (fun m => rf m 0%nat = s /\ rf m 1%nat = d /\ rf m 2%nat = off /\ rf m 3%nat = N.of_nat len)
      (fun m m' => bytes_at m' d len = bytes_at m (s + off) len /\ untouched m m' [(d, N.of_nat len)]).
  Proof. intros. apply (copy_ok s off d (s + off) d len 12 r0 r1); auto; lia. Qed.

  Lemma nd_r4lr : ~ List.In 13%nat [r4; lr] /\ ~ List.In 13%nat [r4; r5] /\ NoDup [r4] /\ NoDup [r4; r5].
  Proof.
    assert (r4 <> 13%nat /\ lr <> 13%nat /\ r5 <> 13%nat /\ r5 <> r4) by (repeat split; discriminate).
    repeat split; repeat (constructor; [cbn [List.In]; intuition auto|]); try constructor; cbn [List.In]; intuition auto.
  Qed.

  Section Add.
    Variables (s off d sp : N) (len : nat).
    Let A := s + off.
    Hypothesis Ha : s + off + N.of_nat len < 2 ^ 32. Hypothesis Hd : d + N.of_nat len < 2 ^ 32.
    Hypothesis Hsp : sp mod 4 = 0. Hypothesis Hsp' : 8 <= sp. Hypothesis Hsp'' : sp < 2 ^ 32.
    Hypothesis Ra : ok rd A (N.of_nat len). Hypothesis Wa : ok wr A (N.of_nat len). Hypothesis Rd : ok rd d (N.of_nat len).
    Hypothesis Rf : ok rd (sp - 8) 8. Hypothesis Wf : ok wr (sp - 8) 8.
    Hypothesis Ad : apart d (N.of_nat len) A (N.of_nat len). Hypothesis Adf : apart d (N.of_nat len) (sp - 8) 8. Hypothesis Aaf : apart A (N.of_nat len) (sp - 8) 8.

    Lemma addbytes_ok : call una rd wr tab prg AddBytes
      (fun m => rf m 0%nat = s /\ rf m 1%nat = d /\ rf m 2%nat = off /\ rf m 3%nat = N.of_nat len /\ rf m 13%nat = sp)
      (fun m m' => (forall i, (i < len)%nat -> me m' (s + off + N.of_nat i) = N.lxor (me m (s + off + N.of_nat i)) (me m (d + N.of_nat i))) /\
                   untouched m m' [(s + off, N.of_nat len); (sp - 8, 8)]).
    Proof.
      destruct (Nat.eq_dec len 0) as [L0 | L0].
      { exists [In 6; In 3]. intros m S (_ & _ & _ & R3 & _). apply (none 3 6 4 m _ eq_refl eq_refl S); [now rewrite R3, L0|].
        intros m' M. rewrite L0. split; [intros i Hi; lia|]. intros x _. now rewrite M. }
      destruct nd_r4lr as (ND1 & _ & ND2 & _).
      destruct (down0 una rd wr tab prg 5 7 [ILdrbR r2 r1 r3; ILdrbR r4 r0 r3; EORS r2 r2 r4; IStrbR r2 r0 r3] [2%nat; 4%nat]
        (fun m => rf m 0%nat = A /\ rf m 1%nat = d) A len (fun m i => N.lxor (me m (A + N.of_nat i)) (me m (d + N.of_nat i))) eq_refl ltac:(lia)) as (ev & D).
      { intros i Hi. exists [St (A + N.of_nat i) 1; Ld (A + N.of_nat i) 1; Ld (d + N.of_nat i) 1]. intros m0 m (P0 & P1) HJ R3.
        pose proof (j_s _ _ _ _ _ _ _ HJ) as Sm.
        assert (Q0 : rf m 0%nat = A) by (rewrite (j_r _ _ _ _ _ _ _ HJ); auto; intros [H | [H | []]]; discriminate).
        assert (Q1 : rf m 1%nat = d) by (rewrite (j_r _ _ _ _ _ _ _ HJ); auto; intros [H | [H | []]]; discriminate).
        set (x := me m (d + N.of_nat i)). set (y := me m (A + N.of_nat i)). set (v := N.lxor x y).
        set (m1 := setf (setr (setr (see (setr (see m (Ld (d + N.of_nat i) 1)) 2 x) (Ld (A + N.of_nat i) 1)) 4 y) 2 v) (v =? 0) (fc m)).
        assert (Ex : x = me m0 (d + N.of_nat i)).
        { unfold x. rewrite (j_f _ _ _ _ _ _ _ HJ); [reflexivity|]. intros H. apply (Ad (d + N.of_nat i)). lia. }
        assert (Ey : y = me m0 (A + N.of_nat i)).
        { unfold y. rewrite (j_f _ _ _ _ _ _ _ HJ); [reflexivity|]. intros H. lia. }
        assert (Hv : v < 256) by (apply (lxor_lt _ _ 8); apply Sm).
        exists (see (setm m1 (putn (me m1) (A + N.of_nat i) 1 v)) (St (A + N.of_nat i) 1)). split.
        { cbn [runs_is]. rewrite (ldrb_step _ _ _ _ (d + N.of_nat i)); [|unfold r1, r3; rewrite R3, Q1; reflexivity|lia|apply Rd; lia].
          rewrite (ldrb_step _ _ _ _ (A + N.of_nat i)); [|reg; rewrite R3, Q0; reflexivity|unfold A; lia|apply Ra; lia]. rewrite eors_step.
          rewrite (strb_step _ _ _ _ (A + N.of_nat i)); [reflexivity|reg; rewrite R3, Q0; reflexivity|unfold A; lia|apply Wa; lia]. }
        split; [reflexivity|]. split.
        { intros r. cbn [see setm m1 setf setr rf]. unfold set.
          destruct (r =? 2)%nat; [apply small8; exact Hv|]. destruct (r =? 4)%nat; [apply small8; apply Sm|]. apply Sm. }
        split; [intros z; apply putn_byte; [auto|change (N.of_nat 1) with 1; unfold A; lia|apply Sm]|]. split.
        { intros r Hr. cbn [see setm m1 setf setr rf]. unfold set. destruct (Nat.eqb_spec r 2) as [->|]; [elim Hr; now left|].
          destruct (Nat.eqb_spec r 4) as [->|]; [elim Hr; right; now left|reflexivity]. }
        apply (putn1' m1); [unfold A; lia|]. rewrite N.mod_small by exact Hv. unfold v. rewrite Ex, Ey. apply N.lxor_comm. }
      { intros [H | [H | []]]; discriminate. }
      { lia. }
      exists (Ld (sp - 4) 4 :: (ld_ev 1 (sp - 8) ++ [In 7]) ++ ev ++ st_ev 2 (sp - 8) ++ [In 4; In 3]). intros m S (R0 & R1 & R2 & R3 & R13).
      set (m1 := setf (setr (see m (In 3)) 3 (N.of_nat (len - 1))) (N.of_nat (len - 1) =? 0) true).
      assert (X1 : runs_is una rd wr tab [SUBSi r3 r3 1] (see m (In 3)) = Some m1) by (cbn [runs_is]; rewrite (sub1 len) by (exact R3 || lia); reflexivity).
      pose proof (goes_br una rd wr tab prg 3 _ CC 6 4 m m1 eq_refl X1) as G1. cbn [holds m1 setf fc negb] in G1. fold m1 in G1.
      set (m2 := setf (setr (see m1 (In 4)) 0 (s + off)) (s + off =? 0) (2 ^ 32 <=? s + off)).
      assert (S2 : sane m2).
      { unfold m2. apply sane_setf, sane_setr; [|lia]. apply sane_see. unfold m1. apply sane_setf, sane_setr; [exact S|lia]. }
      destruct (push_gen una rd wr tab [r4; lr] sp m2 S2 R13 Hsp Hsp' Wf ND1) as (m3 & X3 & Rg3 & S3 & T3 & F3 & V3).
      change (4 * N.of_nat (length [r4; lr])) with 8 in *. change (length [r4; lr]) with 2%nat in *.
      assert (X2 : runs_is una rd wr tab [ADDS r0 r0 r2; IPush [r4; lr]] (see m1 (In 4)) = Some m3).
      { replace (runs_is una rd wr tab [ADDS r0 r0 r2; IPush [r4; lr]] (see m1 (In 4))) with (run1 una rd wr tab (IPush [r4; lr]) m2); [exact X3|].
        change [ADDS r0 r0 r2; IPush [r4; lr]] with ([ADDS r0 r0 r2] ++ [IPush [r4; lr]]). rewrite runs_app.
        replace (runs_is una rd wr tab [ADDS r0 r0 r2] (see m1 (In 4))) with (Some m2).
        - cbn [runs_is]. now destruct (run1 una rd wr tab (IPush [r4; lr]) m2).
        - cbn [runs_is run1 ADDS opnd alu]. unfold m1. reg. rewrite R0, R2, w32_id by lia. reflexivity. }
      pose proof (goes_jmp una rd wr tab prg 4 _ 5 m1 m3 eq_refl X2) as G2.
      assert (M3 : forall r, r <> 13%nat -> rf m3 r = rf m2 r) by (intros r Hr; rewrite Rg3; unfold set; destruct (Nat.eqb_spec r 13); [contradiction|reflexivity]).
      destruct (D m3 S3) as (m4 & G4 & T4 & J4).
      { rewrite !M3 by discriminate. split; [reflexivity|]. exact R1. } { rewrite M3 by discriminate. reflexivity. }
      destruct (goes_trans _ _ _ _ _ _ _ _ _ _ _ G1 (goes_trans _ _ _ _ _ _ _ _ _ _ _ G2 G4)) as [k Go].
      pose proof (j_s _ _ _ _ _ _ _ J4) as S4.
      assert (P4 : rf m4 13%nat = sp - 8).
      { rewrite (j_r _ _ _ _ _ _ _ J4); [|discriminate|intros [H | [H | []]]; discriminate]. rewrite Rg3. reflexivity. }
      assert (W4 : forall j, (j < 2)%nat -> wd (me m4) (sp - 8 + 4 * N.of_nat j) = rf m (nth j [r4; lr] 0%nat)).
      { intros j Hj. rewrite (wd_ext (me m3)).
        - rewrite V3 by exact Hj. destruct j as [|[|j]]; [reflexivity|reflexivity|lia].
        - lia.
        - intros x Hx. apply (j_f _ _ _ _ _ _ _ J4). intros H. apply (Aaf x). lia. }
      destruct (pop_gen una rd wr tab [r4] (sp - 8) (see m4 (In 7)) ND2 S4 P4) as (m5 & X5 & M5 & P5 & S5 & T5 & F5 & V5).
      { clear - Hsp Hsp'. lia. } { cbn [length]. lia. } { intros x Hx. apply Rf. cbn [length] in Hx. lia. }
      change (4 * N.of_nat (length [r4])) with 4 in *. change (length [r4]) with 1%nat in *. replace (sp - 8 + 4) with (sp - 4) in * by lia.
      set (m6 := setr (see m5 (Ld (sp - 4) 4)) 13 sp).
      exists (k + 1)%nat, m6. rewrite Go. split.
      { cbn [exec]. change (nth_error prg 7) with (Some ([] : list instr, PopPc [r4])). cbv iota beta. cbn [runs_is]. rewrite X5, P5. rewrite load_ok.
        - fold (wd (me m5) (sp - 4)). f_equal.
          + rewrite M5. pose proof (W4 1%nat ltac:(lia)) as W. cbn [nth] in W. change (rf m lr) with (rf m 14%nat) in W. rewrite <- W. cbn [see me]. f_equal. lia.
          + cbn [see rf]. rewrite P5, w32_id by lia. unfold m6. do 2 f_equal. lia.
        - clear - Hsp Hsp'. lia.
        - rewrite addrs_4 by lia. intros x Hx. apply Rf. cbn [List.In] in Hx. lia. }
      split. { cbn [m6 setr see tc]. rewrite T5. cbn [see tc]. rewrite T4, T3. unfold m2, m1. cbn [setf setr see tc]. rewrite <- app_comm_cons, <- !app_assoc. reflexivity. }
      split; [apply sane_setr; [exact S5|exact Hsp'']|]. split.
      { intros r Hr. cbn [m6 setr see rf]. unfold set. destruct (Nat.eqb_spec r 13) as [->|N13]; [auto|].
        destruct (Nat.eq_dec r 4) as [->|N4].
        - pose proof (V5 0%nat ltac:(lia) ltac:(discriminate)) as W. cbn [nth] in W. change r4 with 4%nat in W. rewrite W.
          exact (W4 0%nat ltac:(lia)).
        - rewrite F5; [|intros [H | []]; apply N4; symmetry; exact H|exact N13]. cbn [see rf]. rewrite (j_r _ _ _ _ _ _ _ J4).
          + rewrite M3 by exact N13. unfold m2, m1. cbn [setf setr see rf]. unfold set.
            destruct (Nat.eqb_spec r 0); [exfalso; subst r; cbn [List.In] in Hr; lia|].
            destruct (Nat.eqb_spec r 3); [exfalso; subst r; cbn [List.In] in Hr; lia|]. reflexivity.
          + intros ->. cbn [List.In] in Hr. lia.
          + intros [H | [H | []]]; subst r; cbn [List.In] in Hr; lia. }
      split.
      - intros i Hi. change (me m6) with (me m5). rewrite M5. cbn [see me]. fold A. rewrite (j_v _ _ _ _ _ _ _ J4) by lia. rewrite !F3.
        + reflexivity.
        + intros H. apply (Adf (d + N.of_nat i)). lia.
        + intros H. apply (Aaf (A + N.of_nat i)). lia.
      - intros x Hx. change (me m6) with (me m5). rewrite M5. cbn [see me].
        pose proof (Hx (s + off) (N.of_nat len) ltac:(cbn; auto)) as H1. pose proof (Hx (sp - 8) 8 ltac:(cbn; auto)) as H2.
        rewrite (j_f _ _ _ _ _ _ _ J4) by (unfold A; lia). rewrite F3 by lia. reflexivity.
    Qed.
  End Add.

  Section ExtAdd.
    Variables (s off d o sp : N) (len : nat).
    Let A := s + off.
    Hypothesis Ha : s + off + N.of_nat len < 2 ^ 32. Hypothesis Hd : d + N.of_nat len < 2 ^ 32. Hypothesis Ho : o + N.of_nat len < 2 ^ 32.
    Hypothesis Hsp : sp mod 4 = 0. Hypothesis Hsp' : 8 <= sp. Hypothesis Hsp'' : sp + 4 < 2 ^ 32.
    Hypothesis Ra : ok rd A (N.of_nat len). Hypothesis Rd : ok rd d (N.of_nat len). Hypothesis Wo : ok wr o (N.of_nat len).
    Hypothesis Rf : ok rd (sp - 8) 12. Hypothesis Wf : ok wr (sp - 8) 8.
    Hypothesis Ao : apart A (N.of_nat len) o (N.of_nat len). Hypothesis Ado : d = o \/ apart d (N.of_nat len) o (N.of_nat len).
    Hypothesis Adf : apart d (N.of_nat len) (sp - 8) 8. Hypothesis Aaf : apart A (N.of_nat len) (sp - 8) 8.
    Hypothesis Aof : apart o (N.of_nat len) (sp - 8) 8.

    Lemma extadd_in : exists evs, forall m, sane m -> rf m 0%nat = s -> rf m 3%nat = off -> rf m 13%nat = sp -> bytes_at m sp 4 = word_le 4 (N.of_nat len) ->
      exists m1, runs_is una rd wr tab [IPush [r4; r5]; ADDS r0 r0 r3; LDR r3 ArmAsm.sp 8; SUBSi r3 r3 1] (see m (In 16)) = Some m1 /\ tc m1 = evs ++ tc m /\
        sane m1 /\ fc m1 = negb (len =? 0)%nat /\ rf m1 3%nat = (if (len =? 0)%nat then 2 ^ 32 - 1 else N.of_nat (len - 1)) /\ rf m1 0%nat = A /\
        rf m1 13%nat = sp - 8 /\ (forall r, r <> 0%nat -> r <> 3%nat -> r <> 13%nat -> rf m1 r = rf m r) /\
        (forall x, ~ sp - 8 <= x < sp -> me m1 x = me m x) /\
        (forall j, (j < 2)%nat -> wd (me m1) (sp - 8 + 4 * N.of_nat j) = rf m (nth j [r4; r5] 0%nat)).
    Proof.
      exists (Ld sp 4 :: st_ev 2 (sp - 8) ++ [In 16]). intros m S R0 R3 R13 L.
      destruct nd_r4lr as (_ & ND1 & _ & _).
      destruct (push_gen una rd wr tab [r4; r5] sp (see m (In 16)) S R13 Hsp Hsp' Wf ND1) as (m3 & X3 & Rg3 & S3 & T3 & F3 & V3).
      change (4 * N.of_nat (length [r4; r5])) with 8 in *. change (length [r4; r5]) with 2%nat in *.
      assert (M3 : forall r, r <> 13%nat -> rf m3 r = rf m r) by (intros r Hr; rewrite Rg3; unfold set; destruct (Nat.eqb_spec r 13); [contradiction|reflexivity]).
      assert (P3 : rf m3 13%nat = sp - 8) by (rewrite Rg3; reflexivity).
      set (m4 := setf (setr m3 0 A) (A =? 0) (2 ^ 32 <=? A)).
      assert (X4 : run1 una rd wr tab (ADDS r0 r0 r3) m3 = Some m4).
      { cbn [run1 ADDS opnd alu]. unfold r0, r3. rewrite !M3, R0, R3 by discriminate. fold A. rewrite w32_id by (unfold A; lia). reflexivity. }
      set (m5 := setr (see m4 (Ld sp 4)) 3 (N.of_nat len)).
      assert (Lw : le_word (map (me m4) (addrs sp 4)) = N.of_nat len).
      { rewrite addrs_4 by lia. rewrite <- (le_word_word_le 4 (N.of_nat len)) by (change (2 ^ (8 * N.of_nat 4)) with (2 ^ 32); lia).
        rewrite <- L. cbn [m4 setf setr me]. cbn [map bytes_at seq]. f_equal. unfold bytes_at. cbn [seq map].
        rewrite !F3 by lia. cbn [see me]. change (N.of_nat 0) with 0. rewrite N.add_0_r. reflexivity. }
      assert (X5 : run1 una rd wr tab (LDR r3 ArmAsm.sp 8) m4 = Some m5).
      { cbn [run1 LDR]. change (rf m4 ArmAsm.sp) with (rf m3 13%nat). rewrite P3. replace (w32 (sp - 8 + 8)) with sp by (rewrite w32_id; lia).
        rewrite load_ok.
        - rewrite Lw. reflexivity.
        - unfold al. destruct una; [apply N.mod_1_r|exact Hsp].
        - rewrite addrs_4 by lia. intros x Hx. apply Rf. cbn [List.In] in Hx. lia. }
      assert (S4 : sane m4) by (unfold m4; apply sane_setf, sane_setr; [exact S3|unfold A; lia]).
      assert (exists m1, run1 una rd wr tab (SUBSi r3 r3 1) m5 = Some m1 /\ tc m1 = tc m5 /\ me m1 = me m5 /\ sane m1 /\ fc m1 = negb (len =? 0)%nat /\
        rf m1 3%nat = (if (len =? 0)%nat then 2 ^ 32 - 1 else N.of_nat (len - 1)) /\ forall r, r <> 3%nat -> rf m1 r = rf m4 r) as (m1 & X1 & T1 & M1 & S1 & C1 & Q3 & Qr).
      { destruct (Nat.eqb_spec len 0) as [L0 | L0].
        - rewrite sub1_0 by (cbn [m5 setr rf]; unfold set; cbn [Nat.eqb]; rewrite L0; reflexivity). eexists. split; [reflexivity|]. split; [reflexivity|].
          split; [reflexivity|]. split; [apply sane_setf, sane_setr; [apply sane_setr; [exact S4|lia]|reflexivity]|]. split; [reflexivity|]. split; [reflexivity|].
          intros r Hr. cbn [setf setr m5 see rf]. unfold set. destruct (Nat.eqb_spec r 3); [contradiction|reflexivity].
        - rewrite (sub1 len) by (reflexivity || lia). eexists. split; [reflexivity|]. split; [reflexivity|].
          split; [reflexivity|]. split; [apply sane_setf, sane_setr; [apply sane_setr; [exact S4|lia]|lia]|]. split; [reflexivity|]. split; [reflexivity|].
          intros r Hr. cbn [setf setr m5 see rf]. unfold set. destruct (Nat.eqb_spec r 3); [contradiction|reflexivity]. }
      exists m1. cbn [runs_is]. rewrite X3, X4, X5, X1. split; [reflexivity|].
      split. { rewrite T1. cbn [m5 m4 setf setr see tc]. rewrite T3. cbn [see tc]. rewrite <- app_comm_cons, <- app_assoc. reflexivity. }
      split; [exact S1|]. split; [exact C1|]. split; [exact Q3|]. split; [rewrite Qr by discriminate; reflexivity|].
      split; [rewrite Qr by discriminate; exact P3|]. split.
      { intros r H0 H3 H13. rewrite Qr by exact H3. cbn [m4 setf setr rf]. unfold set. destruct (Nat.eqb_spec r 0); [contradiction|]. now apply M3. }
      split; [intros x Hx; rewrite M1; cbn [m5 m4 setf setr see me]; rewrite F3 by lia; reflexivity|].
      intros j Hj. rewrite M1. cbn [m5 m4 setf setr see me]. rewrite V3 by exact Hj. destruct j as [|[|j]]; [reflexivity|reflexivity|lia].
    Qed.

    Lemma extadd_out : exists evs, forall m m4, rf m 13%nat = sp -> sane m4 -> rf m4 13%nat = sp - 8 ->
      (forall r, List.In r [6; 7; 8; 9; 10; 11; 14]%nat -> rf m4 r = rf m r) ->
      (forall j, (j < 2)%nat -> wd (me m4) (sp - 8 + 4 * N.of_nat j) = rf m (nth j [r4; r5] 0%nat)) ->
      exists m', exec una rd wr tab 1 prg 18 m4 = Back (rf m 14%nat) m' /\ tc m' = evs ++ tc m4 /\ sane m' /\ kept m m' /\ me m' = me m4.
    Proof.
      exists (ld_ev 2 (sp - 8) ++ [In 18]). intros m m4 R13 S4 P4 K W4. destruct nd_r4lr as (_ & _ & _ & ND).
      destruct (pop_gen una rd wr tab [r4; r5] (sp - 8) (see m4 (In 18)) ND S4 P4) as (m5 & X5 & M5 & P5 & S5 & T5 & F5 & V5).
      { clear - Hsp Hsp'. lia. } { cbn [length]. lia. } { intros x Hx. apply Rf. cbn [length] in Hx. lia. }
      change (4 * N.of_nat (length [r4; r5])) with 8 in *. change (length [r4; r5]) with 2%nat in *.
      assert (Q : forall r, List.In r [6; 7; 8; 9; 10; 11; 14]%nat -> rf m5 r = rf m r).
      { intros r Hr. rewrite F5; [apply K, Hr| |]; intros H; [destruct H as [H | [H | []]]|]; subst r; cbn [List.In] in Hr; unfold r4, r5 in *; lia. }
      exists m5. split.
      { cbn [exec]. change (nth_error prg 18) with (Some ([IPop [r4; r5]], BxLr)). cbv iota beta. cbn [runs_is]. rewrite X5.
        rewrite Q by (cbn [List.In]; lia). reflexivity. }
      split; [rewrite T5; cbn [see tc]; now rewrite <- app_assoc|]. split; [exact S5|]. split; [|exact M5].
      intros r Hr. destruct (Nat.eq_dec r 4) as [->|N4].
      { pose proof (V5 0%nat ltac:(lia) ltac:(discriminate)) as W. cbn [nth] in W. change r4 with 4%nat in W. rewrite W. exact (W4 0%nat ltac:(lia)). }
      destruct (Nat.eq_dec r 5) as [->|N5].
      { pose proof (V5 1%nat ltac:(lia) ltac:(discriminate)) as W. cbn [nth] in W. change r5 with 5%nat in W. rewrite W. exact (W4 1%nat ltac:(lia)). }
      destruct (Nat.eq_dec r 13) as [->|N13]; [rewrite P5, R13; lia|]. apply Q. cbn [List.In] in *. lia.
    Qed.

    Lemma extadd_ok : call una rd wr tab prg ExtractAndAddBytes
      (fun m => rf m 0%nat = s /\ rf m 1%nat = d /\ rf m 2%nat = o /\ rf m 3%nat = off /\ rf m 13%nat = sp /\ bytes_at m sp 4 = word_le 4 (N.of_nat len))
      (fun m m' => (forall i, (i < len)%nat -> me m' (o + N.of_nat i) = N.lxor (me m (s + off + N.of_nat i)) (me m (d + N.of_nat i))) /\
                   untouched m m' [(o, N.of_nat len); (sp - 8, 8)]).
    Proof.
      destruct extadd_in as (ev1 & I). destruct extadd_out as (ev3 & O).
      destruct (Nat.eq_dec len 0) as [L0 | L0].
      { exists (ev3 ++ ev1). intros m S (R0 & R1 & R2 & R3 & R13 & L).
        destruct (I m S R0 R3 R13 L) as (m1 & X1 & T1 & S1 & C1 & Q3 & Q0 & Q13 & Qr & F1 & V1).
        pose proof (goes_br una rd wr tab prg 16 _ CC 18 17 m m1 eq_refl X1) as G1. cbn [holds] in G1. rewrite C1, L0 in G1. cbn [Nat.eqb negb] in G1.
        destruct (O m m1 R13 S1 Q13) as (m' & X' & T' & S' & K' & M').
        { intros r Hr. apply Qr; intros ->; cbn [List.In] in Hr; lia. } { exact V1. }
        destruct G1 as [k G1]. exists (k + 1)%nat, m'. rewrite G1. split; [exact X'|]. split; [now rewrite T', T1, app_assoc|]. split; [exact S'|]. split; [exact K'|].
        split; [intros i Hi; lia|]. intros x Hx. rewrite M'. apply F1. specialize (Hx (sp - 8) 8 ltac:(cbn; auto)). lia. }
      destruct (down0 una rd wr tab prg 17 18 [ILdrbR r5 r0 r3; ILdrbR r4 r1 r3; EORS r5 r5 r4; IStrbR r5 r2 r3] [5%nat; 4%nat]
        (fun m => rf m 0%nat = A /\ rf m 1%nat = d /\ rf m 2%nat = o) o len (fun m i => N.lxor (me m (A + N.of_nat i)) (me m (d + N.of_nat i))) eq_refl ltac:(lia)) as (ev & D).
      { intros i Hi. exists [St (o + N.of_nat i) 1; Ld (d + N.of_nat i) 1; Ld (A + N.of_nat i) 1]. intros m0 m (P0 & P1 & P2) HJ R3.
        pose proof (j_s _ _ _ _ _ _ _ HJ) as Sm.
        assert (Q0 : rf m 0%nat = A) by (rewrite (j_r _ _ _ _ _ _ _ HJ); auto; intros [H | [H | []]]; discriminate).
        assert (Q1 : rf m 1%nat = d) by (rewrite (j_r _ _ _ _ _ _ _ HJ); auto; intros [H | [H | []]]; discriminate).
        assert (Q2 : rf m 2%nat = o) by (rewrite (j_r _ _ _ _ _ _ _ HJ); auto; intros [H | [H | []]]; discriminate).
        set (x := me m (A + N.of_nat i)). set (y := me m (d + N.of_nat i)). set (v := N.lxor x y).
        set (m1 := setf (setr (setr (see (setr (see m (Ld (A + N.of_nat i) 1)) 5 x) (Ld (d + N.of_nat i) 1)) 4 y) 5 v) (v =? 0) (fc m)).
        assert (Ex : x = me m0 (A + N.of_nat i)).
        { unfold x. rewrite (j_f _ _ _ _ _ _ _ HJ); [reflexivity|]. intros H. apply (Ao (A + N.of_nat i)). lia. }
        assert (Ey : y = me m0 (d + N.of_nat i)).
        { unfold y. rewrite (j_f _ _ _ _ _ _ _ HJ); [reflexivity|]. intros H. destruct Ado as [E | Ap]; [subst o; lia|]. apply (Ap (d + N.of_nat i)). lia. }
        assert (Hv : v < 256) by (apply (lxor_lt _ _ 8); apply Sm).
        exists (see (setm m1 (putn (me m1) (o + N.of_nat i) 1 v)) (St (o + N.of_nat i) 1)). split.
        { cbn [runs_is]. rewrite (ldrb_step _ _ _ _ (A + N.of_nat i)); [|unfold r0, r3; rewrite R3, Q0; reflexivity|unfold A; lia|apply Ra; lia].
          rewrite (ldrb_step _ _ _ _ (d + N.of_nat i)); [|reg; rewrite R3, Q1; reflexivity|lia|apply Rd; lia]. rewrite eors_step.
          rewrite (strb_step _ _ _ _ (o + N.of_nat i)); [reflexivity|reg; rewrite R3, Q2; reflexivity|lia|apply Wo; lia]. }
        split; [reflexivity|]. split.
        { intros r. cbn [see setm m1 setf setr rf]. unfold set.
          destruct (r =? 5)%nat; [apply small8; exact Hv|]. destruct (r =? 4)%nat; [apply small8; apply Sm|]. apply Sm. }
        split; [intros z; apply putn_byte; [auto|change (N.of_nat 1) with 1; lia|apply Sm]|]. split.
        { intros r Hr. cbn [see setm m1 setf setr rf]. unfold set. destruct (Nat.eqb_spec r 5) as [->|]; [elim Hr; now left|].
          destruct (Nat.eqb_spec r 4) as [->|]; [elim Hr; right; now left|reflexivity]. }
        apply (putn1' m1); [lia|]. rewrite N.mod_small by exact Hv. unfold v. rewrite Ex, Ey. reflexivity. }
      { intros [H | [H | []]]; discriminate. }
      { lia. }
      exists (ev3 ++ ev ++ ev1). intros m S (R0 & R1 & R2 & R3 & R13 & L).
      destruct (I m S R0 R3 R13 L) as (m1 & X1 & T1 & S1 & C1 & Q3 & Q0 & Q13 & Qr & F1 & V1).
      destruct (Nat.eqb_spec len 0) as [E | _]; [contradiction|].
      pose proof (goes_br una rd wr tab prg 16 _ CC 18 17 m m1 eq_refl X1) as G1. cbn [holds] in G1. rewrite C1 in G1. cbn [negb] in G1.
      destruct (D m1 S1) as (m4 & G4 & T4 & J4).
      { split; [exact Q0|]. rewrite !Qr by discriminate. auto. } { exact Q3. }
      destruct (O m m4 R13 (j_s _ _ _ _ _ _ _ J4)) as (m' & X' & T' & S' & K' & M').
      { rewrite (j_r _ _ _ _ _ _ _ J4); [exact Q13|discriminate|intros [H | [H | []]]; discriminate]. }
      { intros r Hr. rewrite (j_r _ _ _ _ _ _ _ J4).
        - apply Qr; intros ->; cbn [List.In] in Hr; lia.
        - intros ->; cbn [List.In] in Hr; lia.
        - intros [H | [H | []]]; subst r; cbn [List.In] in Hr; lia. }
      { intros j Hj. rewrite <- V1 by exact Hj. apply wd_ext; [lia|]. intros x Hx. apply (j_f _ _ _ _ _ _ _ J4). intros H. apply (Aof x). lia. }
      destruct (goes_trans _ _ _ _ _ _ _ _ _ _ _ G1 G4) as [k Go].
      exists (k + 1)%nat, m'. rewrite Go. split; [exact X'|]. split; [now rewrite T', T4, T1, !app_assoc|]. split; [exact S'|]. split; [exact K'|]. split.
      - intros i Hi. rewrite M', (j_v _ _ _ _ _ _ _ J4) by lia. fold A. rewrite !F1.
        + reflexivity.
        + intros H. apply (Adf (d + N.of_nat i)). lia.
        + intros H. apply (Aaf (A + N.of_nat i)). lia.
      - intros x Hx. rewrite M'. pose proof (Hx o (N.of_nat len) ltac:(cbn; auto)) as H1. pose proof (Hx (sp - 8) 8 ltac:(cbn; auto)) as H2.
        rewrite (j_f _ _ _ _ _ _ _ J4) by lia. apply F1. lia.
    Qed.
  End ExtAdd.
End Fun.
