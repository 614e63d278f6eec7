(* KeccakP400_Permute_Nrounds of opt_32_armv7m and opt_32_armv6m computes the permutation. Proofs only. *)
From Verif Require Import Base Prog Poly SpecPerm Words RefPerm KeccakProof Mem Vocab MemProof RefLib KRound K64Perm K64PermProof KArmPerm.
Open Scope N_scope.
Open Scope prog_scope.

Definition warm : list nat := repeat 16%nat 50 ++ repeat 32%nat 13 ++ [16%nat].

(* What must hold before a round that reads copy X: the program changes nothing. armv7m: the low halves of r9-r12 are sa, se, si, so, r5 is su
   and r7 the parity of the u lanes. *)
Definition lowh (d X l : nat) : stmt := d ::= Shl 32 (Shr d 16) 16 .| V (ls X l).
Definition mid7 (X : nat) : prog :=
  [ lowh r9 X sa; lowh r10 X se; lowh r11 X si; lowh r12 X so; ldrh r5 X su;
    r7 ::= ls X bu .^ ls X gu .^ ls X ku .^ ls X mu .^ ls X su ].

Record arm_ok (A : armcode) (mid : nat -> prog) : Prop := {
  ao_ST : rcheck warm (mid AS ++ a_round A AS AT) AS AT aRC = true;
  ao_TS : rcheck warm (mid AT ++ a_round A AT AS) AT AS aRC = true;
  ao_invST : same_vars warm (a_round A AS AT) (a_round A AS AT ++ mid AT) (seq 0 64) = true;
  ao_invTS : same_vars warm (a_round A AT AS) (a_round A AT AS ++ mid AS) (seq 0 64) = true;
  ao_freshS : pfresh aRC (mid AS) = true;
  ao_freshT : pfresh aRC (mid AT) = true;
  ao_wE : wcheck warm (a_enter_even A) = true;
  ao_wO : wcheck warm (a_enter_odd A) = true;
  ao_E : same_vars warm (a_enter_even A) (a_enter_even A ++ mid AS) (seq 0 64) = true;
  ao_O : same_vars warm (a_enter_odd A) (a_enter_odd A ++ mid AT) (seq 0 64) = true;
  ao_keepE : check warm 0 (a_enter_even A) [] (map (fun i => (i, i)) (seq 0 25)) = true;
  ao_keepO : check warm 0 (a_enter_odd A) [] (map (fun i => (25 + i, i)%nat) (seq 0 25)) = true }.

Lemma armv7m_ok : arm_ok armv7m mid7.
Proof. constructor; vm_cast_no_check (eq_refl true). Qed.
Lemma armv6m_ok : arm_ok armv6m (fun _ => []).
Proof. constructor; vm_cast_no_check (eq_refl true). Qed.

Section Arm.
  Variables (A : armcode) (mid : nat -> prog).
  Hypothesis H : arm_ok A mid.
  Hypothesis Hterm : forall i, (i < 20)%nat -> nth i KeccakF400RoundConstants 0 <> a_term A.
  Notation tb := (a_table A).
  Notation kr i := (k_round false true xorb andb i).

  Definition inv (X : nat) (e : env) : Prop := fits warm e /\ run (mid X) e = e.

  Lemma tb_lt i : (i < 20)%nat -> nth_error tb i = Some (nth i KeccakF400RoundConstants 0).
  Proof.
    intros Hi. unfold a_table. rewrite nth_error_app1 by exact Hi. apply nth_error_nth'. exact Hi.
  Qed.
  Lemma tb_20 : nth_error tb 20 = Some (a_term A).
  Proof. reflexivity. Qed.

  Lemma arm_step_gen X Y i e : (i < 20)%nat -> (X + 25 <= 63)%nat ->
    rcheck warm (mid X ++ a_round A X Y) X Y aRC = true -> pfresh aRC (mid X) = true ->
    same_vars warm (a_round A X Y) (a_round A X Y ++ mid Y) (seq 0 64) = true -> inv X e ->
    exists e', a_step A X Y i e = Some e' /\ inv Y e' /\ wbits (sub Y 25 e') = kr i (wbits (sub X 25 e)).
  Proof.
    intros Hi HX Hc Hf Hs [F P]. unfold a_step. rewrite tb_lt by auto. set (c := nth i KeccakF400RoundConstants 0).
    eexists. split; [reflexivity|].
    assert (F1 : fits warm (upd_nth e aRC c)). { apply fits_upd; auto. unfold c. exact (rcs_lt i). }
    assert (E : run (a_round A X Y) (upd_nth e aRC c) = run (mid X ++ a_round A X Y) (upd_nth e aRC c)).
    { rewrite run_app, (run_fresh aRC (mid X) e c Hf), P. reflexivity. }
    assert (Hrc : nth aRC (upd_nth e aRC c) 0 = nth i KeccakRoundConstants 0).
    { rewrite nth_upd_nth, Nat.eqb_refl, (proj1 F). reflexivity. }
    destruct (round_ok warm _ X Y aRC i _ Hc F1 Hi Hrc) as (F' & _ & _ & W). rewrite <- E in F', W.
    split; [split|].
    - exact F'.
    - rewrite <- run_app. symmetry. exact (same_all warm _ _ _ Hs F1).
    - rewrite W. f_equal. f_equal. unfold sub. apply (nth_ext _ _ 0 0).
      + rewrite !firstn_length, !skipn_length, upd_nth_length. reflexivity.
      + intros n Hn. rewrite firstn_length in Hn. rewrite !nth_firstn_lt, !nth_skipn_add by lia. rewrite nth_upd_nth.
        destruct (Nat.eqb_spec (X + n) aRC) as [E1|]; auto. unfold aRC in E1. lia.
  Qed.

  Lemma arm_ST i e : (i < 20)%nat -> inv AS e ->
    exists e', a_step A AS AT i e = Some e' /\ inv AT e' /\ wbits (sub AT 25 e') = kr i (wbits (sub AS 25 e)).
  Proof.
    intros Hi I. exact (arm_step_gen AS AT i e Hi ltac:(unfold AS; lia) (ao_ST _ _ H) (ao_freshS _ _ H) (ao_invST _ _ H) I).
  Qed.
  Lemma arm_TS i e : (i < 20)%nat -> inv AT e ->
    exists e', a_step A AT AS i e = Some e' /\ inv AS e' /\ wbits (sub AS 25 e') = kr i (wbits (sub AT 25 e)).
  Proof.
    intros Hi I. exact (arm_step_gen AT AS i e Hi ltac:(unfold AT; lia) (ao_TS _ _ H) (ao_freshT _ _ H) (ao_invTS _ _ H) I).
  Qed.

  (* n pairs of rounds remain after the one from the stack *)
  Lemma arm_odd n : forall fuel i e, (n < fuel)%nat -> (i + 2 * n = 19)%nat -> inv AT e ->
    exists e', a_odd A fuel i e = Some e' /\ fits warm e' /\
      wbits (sub AS 25 e') = fold_left (fun B j => kr j B) (seq i (2 * n + 1)) (wbits (sub AT 25 e)).
  Proof.
    induction n as [|n IH]; intros fuel i e Hf Hi I; (destruct fuel as [|fuel]; [lia|]); cbn [a_odd];
      destruct (arm_TS i e ltac:(lia) I) as (e1 & -> & I1 & W1).
    - replace (S i) with 20%nat by lia. rewrite tb_20, N.eqb_refl. exists e1. split; [reflexivity|]. split; [apply I1|]. exact W1.
    - rewrite (tb_lt (S i)) by lia. destruct (N.eqb_spec (nth (S i) KeccakF400RoundConstants 0) (a_term A)) as [E|_].
      { exfalso. apply (Hterm (S i)); [lia|exact E]. }
      destruct (arm_ST (S i) e1 ltac:(lia) I1) as (e2 & -> & I2 & W2).
      destruct (IH fuel (S (S i)) e2 ltac:(lia) ltac:(lia) I2) as (e3 & -> & F3 & W3).
      exists e3. split; [reflexivity|]. split; [exact F3|]. replace (2 * S n + 1)%nat with (S (S (2 * n + 1))) by lia.
      cbn [seq fold_left]. rewrite W3, W2, W1. reflexivity.
  Qed.

  Lemma enter_even e : fits warm e -> inv AS (run (a_enter_even A) e) /\ sub AS 25 (run (a_enter_even A) e) = sub AS 25 e.
  Proof.
    intros F. split; [split|].
    - exact (wcheck_sound warm _ _ (ao_wE _ _ H) F).
    - rewrite <- run_app. symmetry. exact (same_all warm _ _ _ (ao_E _ _ H) F).
    - pose proof (check_sound warm 0 _ [] _ e (ao_keepE _ _ H) (proj1 F) (proj2 F)) as E. unfold ninit in E. rewrite app_nil_r in E.
      pose proof (proj1 F) as L. change (length warm) with 64%nat in L.
      apply (nth_ext_le _ _ 0); rewrite !sub_length by (rewrite ?run_length; unfold AS; lia); auto.
      intros i Hi. rewrite !sub_nth by auto. apply (E (i, i)). apply in_map_iff. exists i. split; auto. apply in_seq. lia.
  Qed.
  Lemma enter_odd e : fits warm e -> inv AT (run (a_enter_odd A) e) /\ sub AT 25 (run (a_enter_odd A) e) = sub AS 25 e.
  Proof.
    intros F. split; [split|].
    - exact (wcheck_sound warm _ _ (ao_wO _ _ H) F).
    - rewrite <- run_app. symmetry. exact (same_all warm _ _ _ (ao_O _ _ H) F).
    - pose proof (check_sound warm 0 _ [] _ e (ao_keepO _ _ H) (proj1 F) (proj2 F)) as E. unfold ninit in E. rewrite app_nil_r in E.
      pose proof (proj1 F) as L. change (length warm) with 64%nat in L.
      apply (nth_ext_le _ _ 0); rewrite !sub_length by (rewrite ?run_length; unfold AS, AT; lia); auto.
      intros i Hi. rewrite !sub_nth by auto. apply (E (25 + i, i)%nat). apply in_map_iff. exists i. split; auto. apply in_seq. lia.
  Qed.

  Lemma arm_perm_fits n e : (0 < n <= 20)%nat -> fits warm e ->
    exists e', a_perm A (N.of_nat n) e = Some e' /\ fits warm e' /\
      wbits (sub AS 25 e') = keccak_p_bits false true xorb andb n (wbits (sub AS 25 e)).
  Proof.
    intros Hn F. unfold a_perm. destruct (N.ltb_spec 20 (N.of_nat n)) as [Hb|_]; [lia|]. rewrite Nat2N.id. unfold keccak_p_bits.
    destruct (N.even (N.of_nat n)) eqn:Ev.
    - assert (exists k, n = 2 * k + 2)%nat as [k ->].
      { apply N.even_spec in Ev as [q Eq]. exists (N.to_nat q - 1)%nat. lia. }
      destruct (enter_even e F) as [I0 E0].
      destruct (arm_ST (20 - (2 * k + 2)) _ ltac:(lia) I0) as (e1 & -> & I1 & W1).
      destruct (arm_odd k 20 (S (20 - (2 * k + 2))) e1 ltac:(lia) ltac:(lia) I1) as (e2 & -> & F2 & W2).
      exists e2. split; [reflexivity|]. split; [exact F2|]. replace (2 * k + 2)%nat with (S (2 * k + 1)) at 2 by lia.
      cbn [seq fold_left]. rewrite W2, W1, E0. reflexivity.
    - assert (exists k, n = 2 * k + 1)%nat as [k ->].
      { rewrite <- N.negb_odd in Ev. apply negb_false_iff, N.odd_spec in Ev as [q Eq]. exists (N.to_nat q). lia. }
      destruct (enter_odd e F) as [I0 E0].
      destruct (arm_odd k 20 (20 - (2 * k + 1)) _ ltac:(lia) ltac:(lia) I0) as (e2 & -> & F2 & W2).
      exists e2. split; [reflexivity|]. split; [exact F2|]. rewrite W2, E0. reflexivity.
  Qed.

  Definition ascr_ok (scr : list N) : Prop :=
    length scr = 39%nat /\ forall j, (j < 39)%nat -> (nth j scr 0 < 2 ^ N.of_nat (nth (25 + j) warm 0%nat))%N.

  Theorem arm_perm_ok scr n S : (0 < n <= 20)%nat -> ascr_ok scr -> bytes S -> length S = 50%nat ->
    exists ws, a_perm_lanes A scr (N.of_nat n) (map le_word (chunks 2 S)) = Some ws /\ length ws = 25%nat /\
      concat (map (word_le 2) ws) = keccak_p n S.
  Proof.
    intros Hn [Ls Fs] HS L. pose proof (words25_chunks S HS L) as [W1 W2]. set (ws := map le_word (chunks 2 S)) in *.
    assert (F : fits warm (ws ++ scr)).
    { split; [rewrite app_length, W1, Ls; reflexivity|]. intros j Hj. change (length warm) with 64%nat in Hj.
      destruct (Nat.lt_ge_cases j 25) as [Hj1|Hj1].
      - rewrite app_nth1 by lia. replace (nth j warm 0%nat) with 16%nat.
        + apply (Forall_nth_lt (fun w => w < 2 ^ 16)); auto. lia.
        + unfold warm. rewrite app_nth1 by (rewrite repeat_length; lia). symmetry. apply (repeat_spec 50). apply nth_In. rewrite repeat_length. lia.
      - rewrite app_nth2 by lia. replace j with (25 + (j - length ws))%nat at 2 by lia. apply Fs. lia. }
    destruct (arm_perm_fits n _ Hn F) as (e' & E & F' & W). unfold a_perm_lanes. rewrite E.
    exists (firstn 25 e'). split; [reflexivity|]. pose proof (proj1 F') as L'. change (length warm) with 64%nat in L'.
    split; [rewrite firstn_length; lia|]. apply lanes_bytes; auto; [lia|]. fold ws. change (firstn 25 e') with (sub AS 25 e'). rewrite W.
    do 2 f_equal. unfold sub, AS. cbn [skipn]. rewrite firstn_app, W1, Nat.sub_diag, firstn_O, app_nil_r. apply firstn_all2. lia.
  Qed.
End Arm.

Lemma armv7m_term i : (i < 20)%nat -> nth i KeccakF400RoundConstants 0 <> a_term armv7m.
Proof. intros Hi. do 20 (destruct i as [|i]; [discriminate|]). lia. Qed.
Lemma armv6m_term i : (i < 20)%nat -> nth i KeccakF400RoundConstants 0 <> a_term armv6m.
Proof. intros Hi. do 20 (destruct i as [|i]; [discriminate|]). lia. Qed.
