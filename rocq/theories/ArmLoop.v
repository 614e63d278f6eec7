(* The blocks of KeccakP400_Permute_Nrounds between the first and the last instructions of the function, against the word programs of KArmPerm.v.
   Proofs only. *)
From Verif Require Import Base Prog SpecPerm Words RefPerm ArmIsa ArmAsm ArmSim KArmPermProof.
From Verif Require K64Perm.
From Verif Require Import KRound.
From Verif Require KArmPerm.
Open Scope N_scope.

Lemma nth_upd_same {A} (l : list A) n d : upd_nth l n (nth n l d) = l.
Proof. revert n. induction l as [|x l IH]; intros [|n]; cbn; auto. now rewrite IH. Qed.
Lemma upd_upd {A} (l : list A) n (x y : A) : upd_nth (upd_nth l n x) n y = upd_nth l n y.
Proof. revert n. induction l as [|z l IH]; intros [|n]; cbn; auto. now rewrite IH. Qed.

Lemma some_inj {A} (x y : A) : Some x = Some y -> x = y.
Proof. congruence. Qed.
Lemma even_N n : N.even (N.of_nat n) = Nat.even n.
Proof.
  destruct (Nat.even n) eqn:E.
  - apply Nat.even_spec in E as [q ->]. apply N.even_spec. exists (N.of_nat q). lia.
  - rewrite <- Nat.negb_odd in E. apply negb_false_iff, Nat.odd_spec in E as [q ->]. rewrite <- N.negb_odd. apply negb_false_iff, N.odd_spec.
    exists (N.of_nat q). lia.
Qed.

Section Loop.
  Variables (una : bool) (rd wr : N -> bool) (tab sb fb lo : N) (table : list N).

  Definition inX (a : N) : Prop := inS sb a \/ lo <= a < fb + 50.
  Definition inT (a : N) : Prop := tab <= a < tab + 42.
  Record place : Prop := {
    p_sa : sb mod 4 = 0; p_fa : fb mod 4 = 0; p_s : sb + 50 < 2 ^ 32; p_f : fb + 50 < 2 ^ 32;
    p_lo : lo = fb \/ lo + 4 = fb;
    p_sf : sb + 50 <= lo \/ fb + 50 <= sb;
    p_x : forall a, inX a -> rd a = true /\ wr a = true;
    p_ta : tab mod 2 = 0; p_t : tab + 42 < 2 ^ 32;
    p_tr : forall a, inT a -> rd a = true;
    p_tx : forall a, inT a -> ~ inX a }.
  Hypothesis G : place.

  Lemma tx : (tab + 42 <= sb \/ sb + 50 <= tab) /\ (tab + 42 <= lo \/ fb + 50 <= tab).
  Proof.
    pose proof (p_tx G) as H. pose proof (p_lo G) as L. unfold inT, inX, inS in H. split.
    - destruct (N.le_gt_cases (tab + 42) sb); [auto|]. destruct (N.le_gt_cases (sb + 50) tab); [auto|]. exfalso.
      destruct (N.le_gt_cases sb tab).
      + apply (H tab); [lia|]. left. lia.
      + apply (H sb); [lia|]. left. lia.
    - destruct (N.le_gt_cases (tab + 42) lo); [auto|]. destruct (N.le_gt_cases (fb + 50) tab); [auto|]. exfalso.
      destruct (N.le_gt_cases lo tab).
      + apply (H tab); [lia|]. right. lia.
      + apply (H lo); [lia|]. right. lia.
  Qed.

  Lemma geo_i tp rco i : tp + rco = tab + 2 * N.of_nat i -> (i < 21)%nat -> geo rd wr sb fb tp rco.
  Proof.
    intros E Hi. destruct tx as [T1 T2]. pose proof G as [A1 A2 A3 A4 A5 A6 A7 A8 A9 A10 _].
    constructor; try assumption.
    - clear - A5 A6. lia.
    - intros a Ha. apply A7. left. exact Ha.
    - intros a Ha. apply A7. right. unfold inF in Ha. clear - Ha A5. lia.
    - rewrite E. clear - A8. lia.
    - rewrite E. clear - A9 Hi. lia.
    - rewrite E. split; apply A10; unfold inT; clear - Hi; lia.
    - rewrite E. clear - T1 Hi. lia.
    - rewrite E. clear - T2 Hi A5. lia.
  Qed.

  Record st (k : kn) (tp rco : N) (m : mc) (e : env) : Prop := {
    s_len : length e = 64%nat;
    s_rel : rel sb fb tp rco k (rf m) (me m) (upd_nth e 63 (hw (me m) (tp + rco)));
    s_tab : forall i, (i < 21)%nat -> hw (me m) (tab + 2 * N.of_nat i) = nth i table 0 }.

  Definition keep (m m' : mc) : Prop := forall a, ~ inX a -> me m' a = me m a.
  Lemma keep_trans m1 m2 m3 : keep m1 m2 -> keep m2 m3 -> keep m1 m3.
  Proof. intros H1 H2 a Ha. now rewrite H2, H1. Qed.
  Lemma keep_tab m m' : keep m m' -> (forall i, (i < 21)%nat -> hw (me m) (tab + 2 * N.of_nat i) = nth i table 0) ->
    forall i, (i < 21)%nat -> hw (me m') (tab + 2 * N.of_nat i) = nth i table 0.
  Proof. intros K H i Hi. rewrite <- (H i Hi). unfold hw. rewrite !K; auto; apply (p_tx G); unfold inT; lia. Qed.

  Lemma rel_move tp rco tp' rco' k k' f g e : rel sb fb tp rco k f g e ->
    (forall r, (r < 15)%nat -> match nth r k' Junk with Junk => True | Tab d' => exists d, nth r k Junk = Tab d /\ tp + d = tp' + d' | v => nth r k Junk = v end) ->
    rel sb fb tp' rco' k' f g (upd_nth e 63 (hw g (tp' + rco'))).
  Proof.
    intros [Re Rr RS RF RC Rf Rg] H. constructor; auto.
    - now rewrite upd_nth_length.
    - intros r Hr. specialize (H r Hr). specialize (Rr r Hr). rewrite nth_upd_nth.
      destruct (Nat.eqb_spec (cell r) 63) as [E|_]; [exfalso; unfold cell in E; destruct (Nat.eqb_spec r 14); lia|].
      destruct (nth r k' Junk) as [|X d|c|d|]; try (rewrite H in Rr; exact Rr); [|exact I].
      destruct H as (d1 & E1 & E2). rewrite E1 in Rr. cbn [holdsk] in *. lia.
    - intros l Hl. rewrite nth_upd_nth. destruct (Nat.eqb_spec l 63); [lia|auto].
    - intros l Hl. rewrite nth_upd_nth. destruct (Nat.eqb_spec (25 + l) 63); [lia|auto].
    - rewrite nth_upd_nth, Re. cbn [Nat.eqb]. reflexivity.
  Qed.

  Lemma rel_mem tp rco k f g g' e : rel sb fb tp rco k f g e ->
    (forall a, inS sb a \/ inF fb a \/ a = tp + rco \/ a = tp + rco + 1 -> g' a = g a) -> (forall a, g' a < 256) -> rel sb fb tp rco k f g' e.
  Proof.
    intros [Re Rr RS RF RC Rf Rg] H Hb. constructor; auto.
    - intros l Hl. rewrite <- RS by auto. unfold hw. rewrite !H; auto; left; unfold inS; lia.
    - intros l Hl. rewrite <- RF by auto. unfold hw. rewrite !H; auto; right; left; unfold inF; lia.
    - rewrite RC. unfold hw. rewrite !H; auto.
  Qed.

  Lemma runs_app is js : forall m, runs_is una rd wr tab (is ++ js) m =
    match runs_is una rd wr tab is m with Some m' => runs_is una rd wr tab js m' | None => None end.
  Proof. induction is as [|i is IH]; intros m; [reflexivity|]. cbn [app runs_is]. destruct (run1 una rd wr tab i m); auto. Qed.

  Definition goes (c : code) (l : nat) (m : mc) (l' : nat) (m' : mc) : Prop :=
    exists n, forall fuel, exec una rd wr tab (n + fuel) c l m = exec una rd wr tab fuel c l' m'.
  Lemma goes_trans c l1 l2 l3 m1 m2 m3 : goes c l1 m1 l2 m2 -> goes c l2 m2 l3 m3 -> goes c l1 m1 l3 m3.
  Proof. intros [a Ha] [b Hb]. exists (a + b)%nat. intros f. rewrite <- Nat.add_assoc, Ha. apply Hb. Qed.
  Lemma goes_jmp c l is l' m m' : nth_error c l = Some (is, Jmp l') -> runs_is una rd wr tab is (see m (In l)) = Some m' -> goes c l m l' m'.
  Proof. intros E R. exists 1%nat. intros f. cbn [Nat.add exec]. now rewrite E, R. Qed.
  Lemma goes_br c l is b l1 l2 m m' : nth_error c l = Some (is, Br b l1 l2) -> runs_is una rd wr tab is (see m (In l)) = Some m' ->
    goes c l m (if holds b m' then l1 else l2) m'.
  Proof. intros E R. exists 1%nat. intros f. cbn [Nat.add exec]. now rewrite E, R. Qed.

  Definition sim (c : code) (l : nat) (P : mc -> env -> Prop) (F : env -> option env) (l' : nat) (Q : mc -> env -> Prop) : Prop :=
    exists evs, forall m e, P m e -> exists m' e', F e = Some e' /\ goes c l m l' m' /\ Q m' e' /\ keep m m' /\ tc m' = evs ++ tc m.

  (* ---------- the loop of both programs ---------- *)

  Section Gen.
    Variables (A : KArmPerm.armcode) (c : code) (lE lO lX : nat) (PE PO : nat -> mc -> env -> Prop).
    Hypothesis Hterm : forall i, (i < 20)%nat -> nth i K64Perm.KeccakF400RoundConstants 0 <> KArmPerm.a_term A.
    Hypothesis ST : forall i, (i < 20)%nat -> sim c lE (PE i) (KArmPerm.a_step A KArmPerm.AS KArmPerm.AT i) lO (PO (S i)).
    Hypothesis TS : forall i, (i < 20)%nat ->
      sim c lO (PO i) (KArmPerm.a_step A KArmPerm.AT KArmPerm.AS i) (if (S i =? 20)%nat then lX else lE) (PE (S i)).

    Lemma sim_odd n : forall fuel i, (n < fuel)%nat -> (i + 2 * n = 19)%nat -> sim c lO (PO i) (KArmPerm.a_odd A fuel i) lX (PE 20).
    Proof.
      induction n as [|n IH]; intros fuel i Hf Hi; (destruct fuel as [|fuel]; [lia|]); destruct (TS i ltac:(lia)) as (ev1 & H1).
      - exists ev1. intros m e P. destruct (H1 m e P) as (m' & e' & E & Go & Q & K & T). exists m', e'. cbn [KArmPerm.a_odd]. rewrite E.
        replace (S i) with 20%nat in * by lia. rewrite tb_20, N.eqb_refl. cbn [Nat.eqb] in Go. auto.
      - destruct (ST (S i) ltac:(lia)) as (ev2 & H2). destruct (IH fuel (S (S i)) ltac:(lia) ltac:(lia)) as (ev3 & H3).
        exists (ev3 ++ ev2 ++ ev1). intros m e P. destruct (H1 m e P) as (m1 & e1 & E1 & G1 & Q1 & K1 & T1).
        destruct (Nat.eqb_spec (S i) 20) as [|_]; [exfalso; lia|].
        destruct (H2 m1 e1 Q1) as (m2 & e2 & E2 & G2 & Q2 & K2 & T2). destruct (H3 m2 e2 Q2) as (m3 & e3 & E3 & G3 & Q3 & K3 & T3).
        exists m3, e3. cbn [KArmPerm.a_odd]. rewrite E1. rewrite (tb_lt A (S i)) by lia.
        destruct (N.eqb_spec (nth (S i) K64Perm.KeccakF400RoundConstants 0) (KArmPerm.a_term A)) as [E|_].
        { exfalso. apply (Hterm (S i)); [lia|exact E]. }
        rewrite E2, E3. split; [reflexivity|]. split; [exact (goes_trans _ _ _ _ _ _ _ G1 (goes_trans _ _ _ _ _ _ _ G2 G3))|].
        split; [exact Q3|]. split; [exact (keep_trans _ _ _ K1 (keep_trans _ _ _ K2 K3))|]. rewrite T3, T2, T1, !app_assoc. reflexivity.
    Qed.
  End Gen.

  (* A translated list of instructions behind any event. *)
  Lemma seg is k k' p tp rco i : tp + rco = tab + 2 * N.of_nat i -> (i < 21)%nat -> good k -> trs una rco k is = Some (k', p) ->
    good k' /\ exists evs, forall m e, rel sb fb tp rco k (rf m) (me m) e -> exists m', runs_is una rd wr tab is m = Some m' /\
      rel sb fb tp rco k' (rf m') (me m') (Prog.run p e) /\ tc m' = evs ++ tc m /\ (forall a, ~ inS sb a -> ~ inF fb a -> me m' a = me m a).
  Proof. intros E Hi Hg Ht. exact (trs_sound una rd wr tab sb fb tp rco (geo_i tp rco i E Hi) is k k' p Hg Ht). Qed.

  Lemma notX a : ~ inX a -> ~ inS sb a /\ ~ inF fb a.
  Proof. pose proof (p_lo G) as L. unfold inX, inF. intros H. split; intros H1; apply H; [left; exact H1|right; lia]. Qed.

  Lemma a_step_nth A X Y i e : table = KArmPerm.a_table A -> (i < 21)%nat ->
    KArmPerm.a_step A X Y i e = Some (Prog.run (KArmPerm.a_round A X Y) (upd_nth e 63 (nth i table 0))).
  Proof.
    intros -> Hi. unfold KArmPerm.a_step. rewrite (nth_error_nth' _ 0) by exact Hi. reflexivity.
  Qed.

  (* from st to rel and back *)
  Lemma st_rel k tp rco m e i : st k tp rco m e -> tp + rco = tab + 2 * N.of_nat i -> (i < 21)%nat ->
    rel sb fb tp rco k (rf m) (me m) (upd_nth e 63 (nth i table 0)).
  Proof. intros S E Hi. rewrite <- (s_tab _ _ _ _ _ S i Hi), <- E. apply (s_rel _ _ _ _ _ S). Qed.
  Lemma rel_st k tp rco m e : rel sb fb tp rco k (rf m) (me m) (upd_nth e 63 (hw (me m) (tp + rco))) -> length e = 64%nat ->
    (forall i, (i < 21)%nat -> hw (me m) (tab + 2 * N.of_nat i) = nth i table 0) -> st k tp rco m e.
  Proof. intros R L H. constructor; auto. Qed.

  (* ---------- armv7m ---------- *)

  Definition K7 : kn := [At 0 0; Junk; Junk; Junk; Junk; Var; Junk; Var; Tab 0; Var; Var; Var; Var; At 25 0; Junk].
  Definition K7' : kn := [At 0 0; Var; Var; Var; Var; Var; Var; Var; Tab 2; Var; Var; Var; Var; At 25 0; Var].
  Lemma tr7_ST : trs true 0 K7 (KeccakRound7 sp r0) = Some (K7', KArmPerm.round7 KArmPerm.AS KArmPerm.AT).
  Proof. vm_compute. reflexivity. Qed.
  Lemma tr7_TS : trs true 0 K7 (KeccakRound7 r0 sp) = Some (K7', KArmPerm.round7 KArmPerm.AT KArmPerm.AS).
  Proof. vm_compute. reflexivity. Qed.
  Lemma good_K7 : good K7.
  Proof. split; [reflexivity|]. intros r. do 15 (destruct r as [|r]; [cbn; intros H; try discriminate H; reflexivity|]). destruct r; discriminate. Qed.
  Lemma move_K7 tp r : (r < 15)%nat ->
    match nth r K7 Junk with Junk => True | Tab d' => exists d, nth r K7' Junk = Tab d /\ tp + d = (tp + 2) + d' | v => nth r K7' Junk = v end.
  Proof. intros Hr. do 15 (destruct r as [|r]; [cbn; auto; exists 2; split; reflexivity || lia|]). lia. Qed.

  Section V7.
    Hypothesis Hu : una = true.
    Hypothesis Htab : table = KArmPerm.a_table KArmPerm.armv7m.
    Notation T i := (tab + 2 * N.of_nat i).
    Notation P7 i := (st K7 (T i) 0).

    Lemma step7 i is p X Y : (i < 20)%nat -> trs true 0 K7 is = Some (K7', p) -> p = KArmPerm.round7 X Y ->
      exists evs, forall m e, P7 i m e -> exists m' e', KArmPerm.a_step KArmPerm.armv7m X Y i e = Some e' /\
        runs_is una rd wr tab is m = Some m' /\ P7 (S i) m' e' /\ keep m m' /\ tc m' = evs ++ tc m.
    Proof.
      intros Hi Ht Ep. rewrite <- Hu in Ht. destruct (seg is K7 K7' p (T i) 0 i ltac:(lia) ltac:(lia) good_K7 Ht) as (Hg & evs & H).
      exists evs. intros m e S. destruct (H m _ (st_rel _ _ _ _ _ i S ltac:(lia) ltac:(lia))) as (m' & E & R & Tr & Fr).
      assert (K : keep m m') by (intros a Ha; destruct (notX a Ha); now apply Fr).
      exists m'. eexists. split; [apply a_step_nth; auto; lia|]. split; [exact E|]. split; [|split; [exact K|exact Tr]]. subst p. cbn [KArmPerm.a_round KArmPerm.armv7m].
      apply rel_st.
      - apply (rel_move (T i) 0 (T (Datatypes.S i)) 0 K7' K7 _ _ _ R). intros r Hr. pose proof (move_K7 (T i) r Hr) as M.
        replace (T (Datatypes.S i)) with (T i + 2) by lia. exact M.
      - rewrite Prog.run_length, upd_nth_length. apply (s_len _ _ _ _ _ S).
      - apply (keep_tab _ _ K), (s_tab _ _ _ _ _ S).
    Qed.

    Lemma st_see k tp rco m e ev : st k tp rco m e -> st k tp rco (see m ev) e.
    Proof. intros [A B C]. constructor; auto. Qed.

    Lemma ST7 i : (i < 20)%nat -> sim armv7m_s 28 (P7 i) (KArmPerm.a_step KArmPerm.armv7m KArmPerm.AS KArmPerm.AT i) 29 (P7 (S i)).
    Proof.
      intros Hi. destruct (step7 i _ _ KArmPerm.AS KArmPerm.AT Hi tr7_ST eq_refl) as (evs & H). exists (evs ++ [In 28]). intros m e S.
      destruct (H (see m (In 28)) e (st_see _ _ _ _ _ _ S)) as (m' & e' & E & R & S' & K & Tr). exists m', e'. split; [exact E|].
      split; [|split; [exact S'|split; [exact K|]; rewrite Tr; cbn [see tc]; rewrite <- app_assoc; reflexivity]].
      exact (goes_jmp armv7m_s 28 (KeccakRound7 sp r0) 29 m m' eq_refl R).
    Qed.

    Lemma TS7 i : (i < 20)%nat ->
      sim armv7m_s 29 (P7 i) (KArmPerm.a_step KArmPerm.armv7m KArmPerm.AT KArmPerm.AS i) (if (S i =? 20)%nat then 30 else 28) (P7 (S i)).
    Proof.
      intros Hi. destruct (step7 i _ _ KArmPerm.AT KArmPerm.AS Hi tr7_TS eq_refl) as (evs & H).
      exists ([Ld (T (S i)) 2] ++ evs ++ [In 29]). intros m e S.
      destruct (H (see m (In 29)) e (st_see _ _ _ _ _ _ S)) as (m1 & e' & E & R & S1 & K & Tr).
      pose proof (st_rel _ _ _ _ _ (Datatypes.S i) S1 ltac:(lia) ltac:(lia)) as R1.
      pose proof (ldrc una rd wr sb fb (T (Datatypes.S i)) 0 (geo_i (T (Datatypes.S i)) 0 (Datatypes.S i) (N.add_0_r _) ltac:(lia)) K7 8 0 0 m1 _ R1 eq_refl ltac:(lia) eq_refl) as L.
      change KArmPerm.aRC with 63%nat in L. rewrite nth_upd_nth, (s_len _ _ _ _ _ S1) in L. cbn [Nat.eqb Nat.ltb Nat.leb] in L. rewrite !N.add_0_r in L.
      set (v := nth (Datatypes.S i) table 0) in *.
      set (m2 := setf (setr (see m1 (Ld (T (Datatypes.S i)) 2)) 3 v) (w32 (v + 2 ^ 32 - 0) =? 0) (0 <=? v)).
      exists m2, e'. split; [exact E|].
      assert (Run : runs_is una rd wr tab (KeccakRound7 r0 sp ++ [ LDRH r3 r8 0; ICmp r3 (Im 0) ]) (see m (In 29)) = Some m2).
      { rewrite runs_app, R. unfold LDRH. cbn [runs_is run1]. change r8 with 8%nat. rewrite N.add_0_r. rewrite L. cbn [opnd alu rf setr see].
        change r3 with 3%nat. change (set (rf m1) 3 v 3) with v. reflexivity. }
      assert (Hv : v < 2 ^ 16). { unfold v. rewrite <- (s_tab _ _ _ _ _ S1 (Datatypes.S i)) by lia. apply hw_lt, (l_g _ _ _ _ _ _ _ _ R1). }
      split.
      { pose proof (goes_br armv7m_s 29 _ NE 28 30 m m2 eq_refl Run) as Go. cbn [holds fz m2 setf] in Go.
        assert (Hz : (w32 (v + 2 ^ 32 - 0) =? 0) = (Datatypes.S i =? 20)%nat).
        { unfold v. rewrite Htab. clear - Hi. do 20 (destruct i as [|i]; [reflexivity|]). lia. }
        rewrite Hz in Go. destruct (Datatypes.S i =? 20)%nat; exact Go. }
      split.
      - apply rel_st; [|apply (s_len _ _ _ _ _ S1)|apply (s_tab _ _ _ _ _ S1)].
        change (rf m2) with (set (rf m1) 3 v). change (me m2) with (me m1).
        change K7 with (upd_nth K7 3 Junk). apply rel_known; [apply (s_rel _ _ _ _ _ S1)|reflexivity|lia|discriminate|exact I|].
        eapply N.lt_trans; [exact Hv|reflexivity].
      - split; [exact K|]. cbn [m2 setf setr see tc]. rewrite Tr. cbn [see tc app]. now rewrite <- app_assoc.
    Qed.

    Definition K7e : kn := [At 0 0; Junk; Junk; Junk; Junk; Junk; Junk; Junk; Tab 0; Junk; Junk; Junk; Junk; At 25 0; Junk].
    Definition K7e' : kn := [At 0 0; Junk; Junk; Junk; Junk; Var; Var; Var; Tab 0; Var; Var; Var; Var; At 25 0; Var].
    Definition K7o' : kn := [At 0 0; At 25 48; Var; Var; Var; Var; Var; Var; Tab 0; Var; Var; Var; Var; At 25 0; Var].
    Lemma tr7_E : trs true 0 K7e even7 = Some (K7e', KArmPerm.enter7_even).
    Proof. vm_compute. reflexivity. Qed.
    Lemma tr7_O : trs true 0 K7e odd7 = Some (K7o', KArmPerm.enter7_odd).
    Proof. vm_compute. reflexivity. Qed.
    Lemma good_K7e : good K7e.
    Proof. split; [reflexivity|]. intros r. do 15 (destruct r as [|r]; [cbn; intros H; try discriminate H; reflexivity|]). destruct r; discriminate. Qed.

    Lemma enter7 i is k p l l' : (i < 21)%nat -> trs true 0 K7e is = Some (k, p) -> pfresh KArmPerm.aRC p = true ->
      (forall r, (r < 15)%nat -> match nth r K7 Junk with Junk => True | Tab d' => exists d, nth r k Junk = Tab d /\ T i + d = T i + d' | v => nth r k Junk = v end) ->
      nth_error armv7m_s l = Some (is, Jmp l') ->
      sim armv7m_s l (st K7e (T i) 0) (fun e => Some (Prog.run p e)) l' (P7 i).
    Proof.
      intros Hi Ht Hf Hk Hl. rewrite <- Hu in Ht. destruct (seg is K7e k p (T i) 0 i ltac:(lia) ltac:(lia) good_K7e Ht) as (Hg & evs & H).
      exists (evs ++ [In l]). intros m e S.
      destruct (H (see m (In l)) _ (st_rel _ _ _ _ _ i (st_see _ _ _ _ _ _ S) ltac:(lia) ltac:(lia))) as (m' & E & R & Tr & Fr).
      assert (K : keep m m') by (intros a Ha; destruct (notX a Ha); now apply Fr).
      exists m', (Prog.run p e). split; [reflexivity|]. split; [exact (goes_jmp _ _ _ _ _ _ Hl E)|].
      split; [|split; [exact K|]; rewrite Tr; cbn [see tc]; rewrite <- app_assoc; reflexivity].
      apply rel_st.
      - pose proof (rel_move (T i) 0 (T i) 0 k K7 _ _ _ R Hk) as R2. change 63%nat with KArmPerm.aRC in R2. rewrite (run_fresh KArmPerm.aRC p e _ Hf), upd_upd in R2.
        exact R2.
      - rewrite Prog.run_length. apply (s_len _ _ _ _ _ S).
      - apply (keep_tab _ _ K), (s_tab _ _ _ _ _ S).
    Qed.

    Lemma body7 n : (0 < n <= 20)%nat ->
      sim armv7m_s (if Nat.even n then 27 else 25) (st K7e (T (20 - n)) 0) (KArmPerm.a_perm KArmPerm.armv7m (N.of_nat n)) 30 (P7 20).
    Proof.
      intros Hn. unfold KArmPerm.a_perm. destruct (N.ltb_spec 20 (N.of_nat n)) as [Hb|_]; [lia|]. rewrite Nat2N.id, even_N.
      destruct (Nat.even n) eqn:Ev.
      - apply Nat.even_spec in Ev as [q ->].
        destruct (enter7 (20 - 2 * q) even7 K7e' KArmPerm.enter7_even 27 28 ltac:(lia) tr7_E eq_refl) as (ev1 & H1).
        { intros r Hr. do 15 (destruct r as [|r]; [cbn; auto; exists 0; split; reflexivity|]). lia. }
        { reflexivity. }
        destruct (ST7 (20 - 2 * q) ltac:(lia)) as (ev2 & H2).
        destruct (sim_odd KArmPerm.armv7m armv7m_s 28 29 30 (fun i => P7 i) (fun i => P7 i) armv7m_term ST7 TS7 (q - 1) 20 (S (20 - 2 * q)) ltac:(lia) ltac:(lia)) as (ev3 & H3).
        exists (ev3 ++ ev2 ++ ev1). intros m e P. destruct (H1 m e P) as (m1 & e1 & E1 & G1 & Q1 & K1 & T1). apply some_inj in E1.
        destruct (H2 m1 e1 Q1) as (m2 & e2 & E2 & G2 & Q2 & K2 & T2). destruct (H3 m2 e2 Q2) as (m3 & e3 & E3 & G3 & Q3 & K3 & T3).
        exists m3, e3. cbn [KArmPerm.a_enter_even KArmPerm.armv7m]. rewrite E1, E2, E3. split; [reflexivity|].
        split; [exact (goes_trans _ _ _ _ _ _ _ G1 (goes_trans _ _ _ _ _ _ _ G2 G3))|].
        split; [exact Q3|]. split; [exact (keep_trans _ _ _ K1 (keep_trans _ _ _ K2 K3))|]. rewrite T3, T2, T1, !app_assoc. reflexivity.
      - assert (exists q, n = 2 * q + 1)%nat as [q ->].
        { rewrite <- Nat.negb_odd in Ev. apply negb_false_iff, Nat.odd_spec in Ev as [q Eq]. exists q. lia. }
        destruct (enter7 (20 - (2 * q + 1)) odd7 K7o' KArmPerm.enter7_odd 25 29 ltac:(lia) tr7_O eq_refl) as (ev1 & H1).
        { intros r Hr. do 15 (destruct r as [|r]; [cbn; auto; exists 0; split; reflexivity|]). lia. }
        { reflexivity. }
        destruct (sim_odd KArmPerm.armv7m armv7m_s 28 29 30 (fun i => P7 i) (fun i => P7 i) armv7m_term ST7 TS7 q 20 (20 - (2 * q + 1)) ltac:(lia) ltac:(lia)) as (ev3 & H3).
        exists (ev3 ++ ev1). intros m e P. destruct (H1 m e P) as (m1 & e1 & E1 & G1 & Q1 & K1 & T1). apply some_inj in E1.
        destruct (H3 m1 e1 Q1) as (m3 & e3 & E3 & G3 & Q3 & K3 & T3).
        exists m3, e3. cbn [KArmPerm.a_enter_odd KArmPerm.armv7m]. rewrite E1, E3. split; [reflexivity|].
        split; [exact (goes_trans _ _ _ _ _ _ _ G1 G3)|].
        split; [exact Q3|]. split; [exact (keep_trans _ _ _ K1 K3)|]. rewrite T3, T1, !app_assoc. reflexivity.
    Qed.
  End V7.

  (* ---------- armv6m ---------- *)

  Notation bs X := (if (X =? 0)%nat then sb else fb).
  Notation T i := (tab + 2 * N.of_nat i).

  Section V6.
    Hypothesis Htab : table = KArmPerm.a_table KArmPerm.armv6m.
    Hypothesis Hlo : lo + 4 = fb.

    Lemma lo_ok : lo mod 4 = 0 /\ lo + 4 <= 2 ^ 32.
    Proof. pose proof (p_fa G) as A. pose proof (p_f G) as B. split; [clear - A Hlo; lia|lia]. Qed.

    Lemma get4_put g v : v < 2 ^ 32 -> le_word (map (putn g lo 4 v) (addrs lo 4)) = v.
    Proof.
      intros Hv. pose proof lo_ok as [_ H]. rewrite addrs_4 by exact H. cbn [map]. rewrite le_word_4, !putn_4 by exact H.
      repeat match goal with |- context [?a =? ?b] => destruct (N.eqb_spec a b); try (exfalso; lia) end.
      change (2 ^ 32) with 4294967296 in Hv. clear - Hv. lia.
    Qed.

    Lemma pushmov s X k tp rco i : tp + rco = T i -> (i < 21)%nat -> good k -> nth s k Junk = At X 0 -> nth 13 k Junk = Cst fb ->
      forall m e, rel sb fb tp rco k (rf m) (me m) e -> exists m', runs_is una rd wr tab [IPush [s]; MOVSi s 31] m = Some m' /\
        rel sb fb tp rco (upd_nth (upd_nth k 13 (Cst lo)) s (Cst 31)) (rf m') (me m') e /\
        le_word (map (me m') (addrs lo 4)) = bs X /\ (forall a, ~ lo <= a < fb -> me m' a = me m a) /\ tc m' = [St lo 4] ++ tc m.
    Proof.
      intros E Hi Hg Hs H13 m e R. pose proof lo_ok as [L1 L2]. pose proof (lt_nth k s _ Hg Hs ltac:(discriminate)) as Ls.
      pose proof (l_r _ _ _ _ _ _ _ _ R 13%nat ltac:(lia)) as Q13. rewrite H13 in Q13. cbn [holdsk] in Q13.
      pose proof (l_r _ _ _ _ _ _ _ _ R s Ls) as Qs. rewrite Hs in Qs. cbn [holdsk] in Qs.
      assert (Vs : rf m s = bs X). { destruct Qs as [_ [[-> Q]|[-> Q]]]; cbn [Nat.eqb]; lia. }
      assert (Bs : rf m s < 2 ^ 32) by apply (l_f _ _ _ _ _ _ _ _ R).
      assert (W : w32 (rf m 13%nat + 2 ^ 32 - words [s]) = lo).
      { rewrite Q13. unfold words. cbn [length]. change (4 * N.of_nat 1) with 4. unfold w32.
        replace (fb + 2 ^ 32 - 4) with (lo + 1 * 2 ^ 32) by lia. rewrite N.mod_add by discriminate. apply N.mod_small. pose proof (p_f G). lia. }
      unfold MOVSi. cbn [runs_is run1]. rewrite W. cbn [stms]. rewrite store_ok; [|exact L1|].
      2: { rewrite addrs_4 by exact L2. intros x Hx. apply (p_x G). right. cbn [List.In] in Hx. lia. }
      cbn [optmap opnd alu]. eexists. split; [reflexivity|]. cbn [setf setr see setm rf me tc].
      assert (Hb : forall a, putn (me m) lo 4 (rf m s) a < 256).
      { intros a. apply putn_byte; [auto|change (N.of_nat 4) with 4; exact L2|apply (l_g _ _ _ _ _ _ _ _ R)]. }
      split; [|split; [rewrite get4_put by exact Bs; exact Vs|split; [|reflexivity]]].
      - apply rel_known; [|rewrite upd_nth_length; apply Hg|exact Ls|discriminate|reflexivity|reflexivity].
        apply rel_known; [|apply Hg|lia|discriminate|reflexivity|lia].
        apply (rel_mem tp rco k _ (me m)); [exact R| |exact Hb].
        intros a Ha. apply putn_out; [change (N.of_nat 4) with 4; exact L2| |auto]. change (N.of_nat 4) with 4.
        destruct tx as [T1 T2]. pose proof (p_sf G) as P1. unfold inS, inF in Ha. clear - Ha T1 T2 P1 Hlo E Hi. lia.
      - intros a Ha. apply putn_out; [change (N.of_nat 4) with 4; exact L2| |auto]. change (N.of_nat 4) with 4. lia.
    Qed.

    Lemma popmov s X k tp rco : (X = 0 \/ X = 25)%nat -> (s < 13)%nat -> good k -> nth 13 k Junk = Cst lo ->
      forall m e, rel sb fb tp rco k (rf m) (me m) e -> le_word (map (me m) (addrs lo 4)) = bs X -> exists m',
        runs_is una rd wr tab [IPop [s]] m = Some m' /\
        rel sb fb tp rco (upd_nth (upd_nth k s (At X 0)) 13 (Cst fb)) (rf m') (me m') e /\ me m' = me m /\ tc m' = [Ld lo 4] ++ tc m.
    Proof.
      intros HX Hs Hg H13 m e R V. pose proof lo_ok as [L1 L2]. pose proof (p_s G) as B1. pose proof (p_f G) as B2.
      pose proof (l_r _ _ _ _ _ _ _ _ R 13%nat ltac:(lia)) as Q13. rewrite H13 in Q13. cbn [holdsk] in Q13.
      cbn [runs_is run1]. rewrite Q13. cbn [ldms]. rewrite load_ok; [|exact L1|].
      2: { rewrite addrs_4 by exact L2. intros x Hx. apply (p_x G). right. cbn [List.In] in Hx. lia. }
      rewrite V. cbn [optmap]. eexists. split; [reflexivity|]. cbn [setr see rf me tc].
      unfold words. cbn [length]. change (4 * N.of_nat 1) with 4. rewrite Hlo, w32_id by lia.
      split; [|split; reflexivity].
      apply rel_known; [|rewrite upd_nth_length; apply Hg|lia|discriminate|reflexivity|lia].
      apply rel_known; [exact R|apply Hg|lia|discriminate| |destruct HX as [-> | ->]; cbn [Nat.eqb]; lia].
      cbn [holdsk]. split; [lia|]. destruct HX as [-> | ->]; cbn [Nat.eqb]; [left|right]; (split; [reflexivity|lia]).
    Qed.

    Definition KE v : kn := [At 0 0; Junk; Junk; Junk; Junk; Junk; At 25 0; Tab 0; Junk; Junk; Junk; Junk; Junk; Cst v; Junk].
    Definition KO v : kn := [At 0 0; Junk; Junk; Junk; Junk; Junk; At 25 0; Junk; Tab 0; Junk; Junk; Junk; Junk; Cst v; Junk].
    Definition KP v : kn := [At 0 0; Junk; Junk; Junk; Junk; Junk; At 25 0; Tab 0; Tab 0; Junk; Junk; Junk; Junk; Cst v; Junk].
    Lemma good_K6 v : good (KE v) /\ good (KO v) /\ good (KP v).
    Proof.
      split; [|split]; (split; [reflexivity|]); intros r;
        do 15 (destruct r as [|r]; [cbn; intros H; try discriminate H; reflexivity|]); destruct r; discriminate.
    Qed.

    (* the two parts of a round *)
    Definition round_tr (s b : nat) (k1 : kn) (X Y : nat) (rco v w : N) : Prop :=
      exists k2 k4 p q, trs una rco (upd_nth (upd_nth k1 13 (Cst v)) s (Cst 31)) (theta6 s b) = Some (k2, p) /\ nth 13 k2 Junk = Cst v /\
        trs una rco (upd_nth (upd_nth k2 s (At Y 0)) 13 (Cst w)) (rho6 s b rco) = Some (k4, q) /\ p ++ q = KArmPerm.round6 X Y /\
        k4 = [At 0 0; Var; Var; Var; Var; Var; At 25 0; Tab 0; Tab 0; Var; Var; Var; Var; Cst w; Var].
    Lemma tr6_ST v w : round_tr r6 r0 (KP w) KArmPerm.AS KArmPerm.AT 0 v w.
    Proof. do 4 eexists. split; [vm_compute; reflexivity|]. split; [reflexivity|]. split; [vm_compute; reflexivity|]. split; [vm_compute; reflexivity|reflexivity]. Qed.
    Lemma tr6_TS v w : round_tr r0 r6 (KO w) KArmPerm.AT KArmPerm.AS 2 v w.
    Proof. do 4 eexists. split; [vm_compute; reflexivity|]. split; [reflexivity|]. split; [vm_compute; reflexivity|]. split; [vm_compute; reflexivity|reflexivity]. Qed.

    Definition K4 v : kn := [At 0 0; Var; Var; Var; Var; Var; At 25 0; Tab 0; Tab 0; Var; Var; Var; Var; Cst v; Var].
    Lemma round6_run s b k1 X Y rco tp i : tp + rco = T i -> (i < 21)%nat -> round_tr s b k1 X Y rco lo fb -> good k1 -> nth s k1 Junk = At Y 0 ->
      nth 13 k1 Junk = Cst fb -> (Y = 0 \/ Y = 25)%nat -> (s < 13)%nat ->
      exists evs, forall m e, rel sb fb tp rco k1 (rf m) (me m) e -> exists m', runs_is una rd wr tab (KeccakRound6 s b rco) m = Some m' /\
        rel sb fb tp rco (K4 fb) (rf m') (me m') (Prog.run (KArmPerm.round6 X Y) e) /\ (forall a, ~ inX a -> me m' a = me m a) /\ tc m' = evs ++ tc m.
    Proof.
      intros E Hi (k2 & k4 & p & q & T1 & H13 & T2 & Epq & E4) Hg Hs1 H131 HY Hs. subst k4.
      assert (Hg1 : good (upd_nth (upd_nth k1 13 (Cst lo)) s (Cst 31))) by (apply good_known; [apply good_known; [exact Hg|]|]; discriminate).
      destruct (seg _ _ _ _ tp rco i E Hi Hg1 T1) as (Hg2 & ev1 & H1).
      assert (Hg3 : good (upd_nth (upd_nth k2 s (At Y 0)) 13 (Cst fb))) by (apply good_known; [apply good_known; [exact Hg2|]|]; discriminate).
      destruct (seg _ _ _ _ tp rco i E Hi Hg3 T2) as (Hg4 & ev2 & H2).
      exists (ev2 ++ [Ld lo 4] ++ ev1 ++ [St lo 4]). intros m e R.
      destruct (pushmov s Y k1 tp rco i E Hi Hg Hs1 H131 m e R) as (m1 & E1 & R1 & V1 & F1 & C1).
      destruct (H1 m1 e R1) as (m2 & E2 & R2 & C2 & F2).
      assert (V2 : le_word (map (me m2) (addrs lo 4)) = bs Y).
      { rewrite <- V1. f_equal. apply map_ext_in. intros a Ha. pose proof lo_ok as [_ L2]. rewrite addrs_4 in Ha by exact L2. cbn [List.In] in Ha.
        pose proof (p_sf G) as P1. apply F2; unfold inS, inF; clear - Ha P1 Hlo; lia. }
      destruct (popmov s Y k2 tp rco HY Hs Hg2 H13 m2 _ R2 V2) as (m3 & E3 & R3 & F3 & C3).
      destruct (H2 m3 _ R3) as (m4 & E4 & R4 & C4 & F4).
      exists m4. split.
      { unfold KeccakRound6. rewrite runs_app, E1, runs_app, E2, runs_app, E3. exact E4. }
      split; [rewrite <- Epq, Prog.run_app; exact R4|]. split.
      - intros a Ha. destruct (notX a Ha) as [A1 A2]. assert (A3 : ~ lo <= a < fb) by (intros A3; apply Ha; right; lia). rewrite F4, F3, F2, F1 by auto. reflexivity.
      - rewrite C4, C3, C2, C1, !app_assoc. reflexivity.
    Qed.

    Notation PE i := (st (KE fb) (T i) 0).
    Definition PO (i : nat) (m : mc) (e : env) : Prop := (0 < i)%nat /\ st (KO fb) (T (i - 1)) 2 m e.

    Lemma ST6 i : (i < 20)%nat -> sim armv6m_s 26 (PE i) (KArmPerm.a_step KArmPerm.armv6m KArmPerm.AS KArmPerm.AT i) 27 (PO (S i)).
    Proof.
      intros Hi. destruct (good_K6 fb) as (GE & GO & GP).
      destruct (seg [MOV r8 r7] (KE fb) (KP fb) [] (T i) 0 i ltac:(lia) ltac:(lia) GE eq_refl) as (_ & ev0 & H0).
      destruct (round6_run r6 r0 (KP fb) KArmPerm.AS KArmPerm.AT 0 (T i) i ltac:(lia) ltac:(lia) (tr6_ST lo fb) GP eq_refl eq_refl
        ltac:(right; reflexivity) ltac:(unfold r6; lia)) as (ev1 & H1).
      exists (ev1 ++ ev0 ++ [In 26]). intros m e S.
      destruct (H0 (see m (In 26)) _ (st_rel _ _ _ _ _ i S ltac:(lia) ltac:(lia))) as (m0 & E0 & R0 & C0 & F0).
      destruct (H1 m0 _ R0) as (m1 & E1 & R1 & F1 & C1).
      assert (K : keep m m1) by (intros a Ha; destruct (notX a Ha); rewrite F1, F0 by auto; reflexivity).
      exists m1. eexists. split; [apply a_step_nth; auto; lia|].
      split; [|split; [|split; [exact K|]]].
      - apply (goes_jmp armv6m_s 26 (MOV r8 r7 :: KeccakRound6 r6 r0 0) 27 m m1 eq_refl).
        change (MOV r8 r7 :: KeccakRound6 r6 r0 0) with ([MOV r8 r7] ++ KeccakRound6 r6 r0 0). rewrite runs_app, E0. exact E1.
      - split; [lia|]. cbn [Nat.sub]. rewrite Nat.sub_0_r. apply rel_st.
        + apply (rel_move (T i) 0 (T i) 2 (K4 fb) (KO fb) _ _ _ R1). intros r Hr.
          do 15 (destruct r as [|r]; [cbn; auto; exists 0; split; reflexivity|]). lia.
        + rewrite Prog.run_length. rewrite upd_nth_length. apply (s_len _ _ _ _ _ S).
        + apply (keep_tab _ _ K), (s_tab _ _ _ _ _ S).
      - rewrite C1, C0. cbn [see tc]. now rewrite <- !app_assoc.
    Qed.

    Lemma TS6 i : (i < 20)%nat ->
      sim armv6m_s 27 (PO i) (KArmPerm.a_step KArmPerm.armv6m KArmPerm.AT KArmPerm.AS i) (if (S i =? 20)%nat then 29 else 26) (PE (S i)).
    Proof.
      intros Hi. destruct (good_K6 fb) as (GE & GO & GP). destruct (Nat.eq_dec i 0) as [->|Hi0].
      { exists []. intros m e [H _]. exfalso. lia. }
      destruct (round6_run r0 r6 (KO fb) KArmPerm.AT KArmPerm.AS 2 (T (i - 1)) i ltac:(lia) ltac:(lia) (tr6_TS lo fb) GO eq_refl eq_refl
        ltac:(left; reflexivity) ltac:(unfold r0; lia)) as (ev1 & H1).
      exists ((if (S i =? 20)%nat then [] else [In 28]) ++ [Ld (T (S i)) 2] ++ ev1 ++ [In 27]). intros m e [_ S].
      destruct (H1 (see m (In 27)) _ (st_rel _ _ _ _ _ i S ltac:(lia) ltac:(lia))) as (m1 & E1 & R1 & F1 & C1).
      set (e' := Prog.run (KArmPerm.round6 KArmPerm.AT KArmPerm.AS) (upd_nth e 63 (nth i table 0))) in *.
      assert (Le : length e' = 64%nat) by (unfold e'; rewrite Prog.run_length, upd_nth_length; apply (s_len _ _ _ _ _ S)).
      assert (K : keep m m1) by exact F1. pose proof (keep_tab _ _ K (s_tab _ _ _ _ _ S)) as Hsame.
      pose proof (l_r _ _ _ _ _ _ _ _ R1 7%nat ltac:(lia)) as Q7. cbn [nth K4 holdsk] in Q7. rewrite N.add_0_r in Q7.
      pose proof (p_t G) as Bt.
      assert (W : w32 (rf m1 7%nat + 4) = T (Datatypes.S i)) by (rewrite Q7, w32_id; lia).
      set (m2 := setf (setr m1 7 (T (Datatypes.S i))) (T (Datatypes.S i) =? 0) (2 ^ 32 <=? rf m1 7%nat + 4)).
      assert (S2 : st (KE fb) (T (Datatypes.S i)) 0 m2 e').
      { apply rel_st; [|exact Le|exact Hsame]. change (rf m2) with (set (rf m1) 7 (T (Datatypes.S i))). change (me m2) with (me m1).
        change (KE fb) with (upd_nth [At 0 0; Junk; Junk; Junk; Junk; Junk; At 25 0; Junk; Junk; Junk; Junk; Junk; Junk; Cst fb; Junk] 7 (Tab 0)).
        apply rel_known; [|reflexivity|lia|discriminate|cbn [holdsk]; lia|lia].
        apply (rel_move (T (i - 1)) 2 (T (Datatypes.S i)) 0 (K4 fb) _ _ _ _ R1). intros r Hr.
        do 15 (destruct r as [|r]; [cbn; auto|]). lia. }
      pose proof (st_rel _ _ _ _ _ (Datatypes.S i) S2 ltac:(lia) ltac:(lia)) as R2.
      pose proof (ldrc una rd wr sb fb (T (Datatypes.S i)) 0 (geo_i (T (Datatypes.S i)) 0 (Datatypes.S i) (N.add_0_r _) ltac:(lia)) (KE fb) 7 0 0 m2 _ R2 eq_refl ltac:(lia) eq_refl) as L.
      change KArmPerm.aRC with 63%nat in L. rewrite nth_upd_nth, Le in L. cbn [Nat.eqb Nat.ltb Nat.leb] in L. rewrite !N.add_0_r in L.
      set (v := nth (Datatypes.S i) table 0) in *.
      set (m3 := setf (setr (see m2 (Ld (T (Datatypes.S i)) 2)) 1 v) (w32 (v + 2 ^ 32 - 0xFF) =? 0) (0xFF <=? v)).
      assert (Run : runs_is una rd wr tab (KeccakRound6 r0 r6 2 ++ [ ADDSi r7 r7 4; LDRH r1 r7 0; ICmp r1 (Im 0xFF) ]) (see m (In 27)) = Some m3).
      { rewrite runs_app, E1. unfold LDRH, ADDSi. cbn [runs_is run1 opnd alu]. change r7 with 7%nat. rewrite W. fold m2. rewrite N.add_0_r. rewrite L.
        cbn [opnd alu rf setr see]. change r1 with 1%nat. change (set (rf m2) 1 v 1) with v. reflexivity. }
      assert (Hv : v < 2 ^ 16). { unfold v. rewrite <- (s_tab _ _ _ _ _ S2 (Datatypes.S i)) by lia. apply hw_lt, (l_g _ _ _ _ _ _ _ _ R2). }
      assert (S3 : st (KE fb) (T (Datatypes.S i)) 0 m3 e').
      { apply rel_st; [|exact Le|exact Hsame]. change (rf m3) with (set (rf m2) 1 v). change (me m3) with (me m2).
        change (KE fb) with (upd_nth (KE fb) 1 Junk). apply rel_known; [apply (s_rel _ _ _ _ _ S2)|reflexivity|lia|discriminate|exact I|].
        eapply N.lt_trans; [exact Hv|reflexivity]. }
      assert (C3 : tc m3 = [Ld (T (Datatypes.S i)) 2] ++ ev1 ++ [In 27] ++ tc m).
      { cbn [m3 m2 setf setr see tc]. rewrite C1. reflexivity. }
      pose proof (goes_br armv6m_s 27 _ EQ 29 28 m m3 eq_refl Run) as Go. cbn [holds fz m3 setf] in Go.
      assert (Hz : (w32 (v + 2 ^ 32 - 0xFF) =? 0) = (Datatypes.S i =? 20)%nat).
      { unfold v. rewrite Htab. clear - Hi. do 20 (destruct i as [|i]; [reflexivity|]). lia. }
      rewrite Hz in Go. fold m3 in Go. destruct (Datatypes.S i =? 20)%nat.
      - exists m3, e'. split; [apply a_step_nth; auto; lia|]. split; [exact Go|]. split; [exact S3|]. split; [exact K|]. rewrite C3. now rewrite <- !app_assoc.
      - exists (see m3 (In 28)), e'. split; [apply a_step_nth; auto; lia|]. split; [|split; [|split; [exact K|]]].
        + exact (goes_trans _ _ _ _ _ _ _ Go (goes_jmp armv6m_s 28 [] 26 m3 _ eq_refl eq_refl)).
        + apply st_see. exact S3.
        + cbn [see tc]. rewrite C3. cbn [app]. now rewrite <- !app_assoc.
    Qed.

    Definition K6o v : kn := [At 0 0; Var; Var; Var; Var; Var; At 25 0; Var; Tab 0; Junk; Junk; Junk; Junk; Cst v; Junk].
    Lemma tr6_O v : trs una 2 (KE v) (skipn 1 odd6) = Some (K6o v, KArmPerm.enter6_odd).
    Proof. vm_compute. reflexivity. Qed.

    Lemma odd6_ok i : (0 < i < 21)%nat -> sim armv6m_s 23 (PE i) (fun e => Some (Prog.run KArmPerm.enter6_odd e)) 27 (PO i).
    Proof.
      intros Hi. destruct (good_K6 fb) as (GE & GO & GP).
      destruct (seg (skipn 1 odd6) (KE fb) (K6o fb) KArmPerm.enter6_odd (T (i - 1)) 2 i ltac:(lia) ltac:(lia) GE (tr6_O fb)) as (_ & ev1 & H1).
      exists (ev1 ++ [In 23]). intros m e S.
      pose proof (st_rel _ _ _ _ _ i S ltac:(lia) ltac:(lia)) as R0.
      pose proof (l_r _ _ _ _ _ _ _ _ R0 7%nat ltac:(lia)) as Q7. cbn [nth KE holdsk] in Q7. rewrite N.add_0_r in Q7.
      pose proof (p_t G) as Bt.
      assert (W : w32 (rf m 7%nat + 2 ^ 32 - 2) = T (i - 1)).
      { rewrite Q7. unfold w32. replace (T i + 2 ^ 32 - 2) with (T (i - 1) + 1 * 2 ^ 32) by lia. rewrite N.mod_add by discriminate. apply N.mod_small. lia. }
      set (m1 := setf (setr (see m (In 23)) 7 (T (i - 1))) (T (i - 1) =? 0) (2 <=? rf m 7%nat)).
      assert (S1 : st (KE fb) (T (i - 1)) 2 m1 e).
      { apply rel_st; [|apply (s_len _ _ _ _ _ S)|apply (s_tab _ _ _ _ _ S)].
        change (rf m1) with (set (rf m) 7 (T (i - 1))). change (me m1) with (me m).
        change (KE fb) with (upd_nth [At 0 0; Junk; Junk; Junk; Junk; Junk; At 25 0; Junk; Junk; Junk; Junk; Junk; Junk; Cst fb; Junk] 7 (Tab 0)).
        apply rel_known; [|reflexivity|lia|discriminate|cbn [holdsk]; lia|lia].
        pose proof (rel_move (T i) 0 (T (i - 1)) 2 (KE fb) [At 0 0; Junk; Junk; Junk; Junk; Junk; At 25 0; Junk; Junk; Junk; Junk; Junk; Junk; Cst fb; Junk] _ _ _ R0) as R1.
        rewrite upd_upd in R1. apply R1. intros r Hr. do 15 (destruct r as [|r]; [cbn; auto|]). lia. }
      destruct (H1 m1 _ (st_rel _ _ _ _ _ i S1 ltac:(lia) ltac:(lia))) as (m2 & E2 & R2 & C2 & F2).
      assert (K : keep m m2) by (intros a Ha; destruct (notX a Ha); rewrite F2 by auto; reflexivity).
      exists m2, (Prog.run KArmPerm.enter6_odd e). split; [reflexivity|]. split; [|split; [|split; [exact K|]]].
      - apply (goes_jmp armv6m_s 23 odd6 27 m m2 eq_refl). change odd6 with (SUBSi r7 r7 2 :: skipn 1 odd6). unfold SUBSi at 1. cbn [runs_is run1 opnd alu].
        change r7 with 7%nat. cbn [see rf]. rewrite W. exact E2.
      - split; [lia|]. apply rel_st.
        + pose proof (rel_move (T (i - 1)) 2 (T (i - 1)) 2 (K6o fb) (KO fb) _ _ _ R2) as R3. change 63%nat with KArmPerm.aRC in R3.
          rewrite (run_fresh KArmPerm.aRC KArmPerm.enter6_odd e _ eq_refl), upd_upd in R3. apply R3.
          intros r Hr. do 15 (destruct r as [|r]; [cbn; auto; exists 0; split; reflexivity|]). lia.
        + rewrite Prog.run_length. apply (s_len _ _ _ _ _ S).
        + apply (keep_tab _ _ K), (s_tab _ _ _ _ _ S).
      - rewrite C2. cbn [m1 setf setr see tc]. now rewrite <- app_assoc.
    Qed.

    Lemma body6 n : (0 < n <= 20)%nat ->
      sim armv6m_s (if Nat.even n then 26 else 23) (PE (20 - n)) (KArmPerm.a_perm KArmPerm.armv6m (N.of_nat n)) 29 (PE 20).
    Proof.
      intros Hn. unfold KArmPerm.a_perm. destruct (N.ltb_spec 20 (N.of_nat n)) as [Hb|_]; [lia|]. rewrite Nat2N.id, even_N.
      destruct (Nat.even n) eqn:Ev.
      - apply Nat.even_spec in Ev as [q ->].
        destruct (ST6 (20 - 2 * q) ltac:(lia)) as (ev2 & H2).
        destruct (sim_odd KArmPerm.armv6m armv6m_s 26 27 29 (fun i => PE i) PO armv6m_term ST6 TS6 (q - 1) 20 (S (20 - 2 * q)) ltac:(lia) ltac:(lia)) as (ev3 & H3).
        exists (ev3 ++ ev2). intros m e P. change (Prog.run (KArmPerm.a_enter_even KArmPerm.armv6m) e) with e.
        destruct (H2 m e P) as (m2 & e2 & E2 & G2 & Q2 & K2 & T2). destruct (H3 m2 e2 Q2) as (m3 & e3 & E3 & G3 & Q3 & K3 & T3).
        exists m3, e3. rewrite E2, E3. split; [reflexivity|].
        split; [exact (goes_trans _ _ _ _ _ _ _ G2 G3)|].
        split; [exact Q3|]. split; [exact (keep_trans _ _ _ K2 K3)|]. rewrite T3, T2, !app_assoc. reflexivity.
      - assert (exists q, n = 2 * q + 1)%nat as [q ->].
        { rewrite <- Nat.negb_odd in Ev. apply negb_false_iff, Nat.odd_spec in Ev as [q Eq]. exists q. lia. }
        destruct (odd6_ok (20 - (2 * q + 1)) ltac:(lia)) as (ev1 & H1).
        destruct (sim_odd KArmPerm.armv6m armv6m_s 26 27 29 (fun i => PE i) PO armv6m_term ST6 TS6 q 20 (20 - (2 * q + 1)) ltac:(lia) ltac:(lia)) as (ev3 & H3).
        exists (ev3 ++ ev1). intros m e P. destruct (H1 m e P) as (m1 & e1 & E1 & G1 & Q1 & K1 & T1). apply some_inj in E1.
        destruct (H3 m1 e1 Q1) as (m3 & e3 & E3 & G3 & Q3 & K3 & T3).
        exists m3, e3. cbn [KArmPerm.a_enter_odd KArmPerm.armv6m]. rewrite E1, E3. split; [reflexivity|].
        split; [exact (goes_trans _ _ _ _ _ _ _ G1 G3)|].
        split; [exact Q3|]. split; [exact (keep_trans _ _ _ K1 K3)|]. rewrite T3, T1, !app_assoc. reflexivity.
    Qed.
  End V6.
End Loop.
