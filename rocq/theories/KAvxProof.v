(* The Keccak-p[400] macros of avx512 compute the permutation, whatever the unused lanes contain. Proofs only. *)
From Verif Require Import Base Prog Poly SpecPerm Words RefPerm KeccakProof Mem Vocab MemProof RefLib Sponge RefProof KRound K64Perm K64PermProof KIsap KIsapProof KAvxPerm.
Open Scope N_scope.

Definition wavx : list nat := repeat 16%nat 385.

Lemma avx_check_SE : rcheck wavx (vround rS rE) 0 32 vrc = true.
Proof. vm_cast_no_check (eq_refl true). Qed.
Lemma avx_check_ES : rcheck wavx (vround rE rS) 32 0 vrc = true.
Proof. vm_cast_no_check (eq_refl true). Qed.
Lemma avx_copy_wid : wcheck wavx (vset rS (fun i => V (lane rE i))) = true.
Proof. vm_cast_no_check (eq_refl true). Qed.

(* The two constants of the ternary instruction: bit 4a+2b+c of the constant is the result for the bits a, b, c. *)
Definition tern (imm : N) (a b c : bool) : bool := N.testbit imm (4 * N.b2n a + 2 * N.b2n b + N.b2n c).
Lemma tern_96 (a b c : bool) : tern 0x96 a b c = xorb (xorb a b) c.
Proof. destruct a, b, c; reflexivity. Qed.
Lemma tern_d2 (a b c : bool) : tern 0xd2 a b c = xorb a (negb b && c).
Proof. destruct a, b, c; reflexivity. Qed.

(* ---------- every variable but the lanes of the state is written before it is read ---------- *)

Fixpoint reads (D : list bool) (e : exp) : bool :=
  match e with
  | V x => nth x D false
  | K _ => true
  | Xor a b | And a b | Or a b => reads D a && reads D b
  | Not _ a | Shl _ a _ | Shr a _ | Ror _ a _ | Trunc _ a => reads D a
  end.
Fixpoint dbu (D : list bool) (p : prog) : option (list bool) :=
  match p with
  | [] => Some D
  | Asg x e :: p' => if reads D e then dbu (upd_nth D x true) p' else None
  end.
Definition same_on (D : list bool) (e e' : env) : Prop := length e = length e' /\ forall x, nth x D false = true -> nth x e 0 = nth x e' 0.

Lemma reads_eval D a e e' : same_on D e e' -> reads D a = true -> eval e a = eval e' a.
Proof.
  intros [_ H]. induction a; cbn [reads eval]; rewrite ?andb_true_iff; intros R; auto;
    try (rewrite IHa1, IHa2 by tauto; reflexivity); try (rewrite IHa by tauto; reflexivity).
Qed.
Lemma dbu_run p : forall D D' e e', same_on D e e' -> dbu D p = Some D' -> same_on D' (run p e) (run p e').
Proof.
  induction p as [|[x a] p IH]; intros D D' e e' H Hd; cbn [dbu] in Hd.
  - injection Hd as <-. exact H.
  - destruct (reads D a) eqn:R; [|discriminate]. unfold run. cbn [fold_left]. apply (fun H => IH _ D' _ _ H Hd).
    cbn [step]. rewrite (reads_eval D a e e' H R). destruct H as [L H]. split; [now rewrite !upd_nth_length|].
    intros y Hy. rewrite nth_upd_nth in Hy. rewrite !nth_upd_nth, L. destruct (Nat.eqb_spec y x) as [E|Hn]; [|now apply H].
    destruct (Nat.ltb_spec x (length e')); auto.
Qed.

Definition dreg (v : nat) : list bool := map (fun x => (x / 32 =? v)%nat) (seq 0 385).
Definition covers (D : list bool) (v : nat) : bool := forallb (fun i => nth (lane v i) D false) (seq 0 32).
Definition dbu_reg (p : prog) (a b : nat) : bool := match dbu (dreg a) p with Some D => covers D b | None => false end.
Lemma avx_dbu_SE : dbu_reg (vround_i 0 rS rE) rS rE = true.
Proof. vm_compute. reflexivity. Qed.
Lemma avx_dbu_ES : dbu_reg (vround_i 0 rE rS) rE rS = true.
Proof. vm_compute. reflexivity. Qed.
Lemma avx_dbu_copy : dbu_reg (vset rS (fun i => V (lane rE i))) rE rS = true.
Proof. vm_compute. reflexivity. Qed.

Definition same_reg (v : nat) (e e' : env) : Prop := length e = length e' /\ forall i, (i < 32)%nat -> nth (lane v i) e 0 = nth (lane v i) e' 0.
Lemma dreg_nth v x : nth x (dreg v) false = true -> (x / 32 = v)%nat.
Proof.
  unfold dreg. intros H. destruct (Nat.lt_ge_cases x 385) as [L|L].
  - rewrite (nth_map_lt _ _ _ 0%nat), seq_nth in H by (rewrite ?seq_length; lia). now apply Nat.eqb_eq in H.
  - rewrite nth_overflow in H; [discriminate|]. now rewrite map_length, seq_length.
Qed.
Lemma dbu_reg_run p a b e e' : dbu_reg p a b = true -> same_reg a e e' -> same_reg b (run p e) (run p e').
Proof.
  unfold dbu_reg. destruct (dbu (dreg a) p) as [D|] eqn:E; [|discriminate]. intros Hc [L H].
  assert (S0 : same_on (dreg a) e e').
  { split; auto. intros x Hx. apply dreg_nth in Hx. specialize (H (x mod 32)%nat ltac:(apply Nat.mod_upper_bound; lia)).
    unfold lane in H. rewrite <- Hx, <- Nat.div_mod in H by lia. exact H. }
  destruct (dbu_run p _ _ _ _ S0 E) as [L' H']. split; auto. intros i Hi. apply H'. unfold covers in Hc.
  rewrite forallb_forall in Hc. apply Hc. apply in_seq. lia.
Qed.
(* The constant does not matter for this. *)
Lemma dbu_const x c c' p a b : dbu_reg (Asg x (K c) :: p) a b = dbu_reg (Asg x (K c') :: p) a b.
Proof. reflexivity. Qed.
Lemma avx_dbu_i1 i : dbu_reg (vround_i i rS rE) rS rE = true.
Proof. exact (eq_trans (dbu_const vrc (nth i KeccakF400RoundConstants 0) (nth 0 KeccakF400RoundConstants 0) (vround rS rE) rS rE) avx_dbu_SE). Qed.
Lemma avx_dbu_i2 i : dbu_reg (vround_i i rE rS) rE rS = true.
Proof. exact (eq_trans (dbu_const vrc (nth i KeccakF400RoundConstants 0) (nth 0 KeccakF400RoundConstants 0) (vround rE rS) rE rS) avx_dbu_ES). Qed.

(* ---------- rounds ---------- *)

Definition vside (i : nat) : nat := if Nat.even i then rS else rE.
Definition vr (i : nat) : prog := if Nat.even i then vround_i i rS rE else vround_i i rE rS.
Lemma run_cons s p e : run (s :: p) e = run p (step e s).
Proof. reflexivity. Qed.
Lemma run_vrc i X Y e : run (vround_i i X Y) e = run (vround X Y) (upd_nth e vrc (nth i KeccakF400RoundConstants 0)).
Proof. exact (run_cons _ _ _). Qed.
Lemma vside_S i : vside (S i) = if Nat.even i then rE else rS.
Proof. unfold vside. rewrite Nat.even_succ, <- Nat.negb_even. now destruct (Nat.even i). Qed.

Lemma avx_round_gen i X Y e : (i < 20)%nat -> rcheck wavx (vround X Y) (32 * X) (32 * Y) vrc = true -> (X <= 1)%nat -> fits wavx e ->
  let e' := run (vround_i i X Y) e in
  fits wavx e' /\ wbits (sub (32 * Y) 25 e') = k_round false true xorb andb i (wbits (sub (32 * X) 25 e)).
Proof.
  intros Hi Hc HX F e'. subst e'. rewrite run_vrc. set (c := nth i KeccakF400RoundConstants 0).
  assert (F1 : fits wavx (upd_nth e vrc c)). { apply fits_upd; auto. unfold c. exact (rcs_lt i). }
  destruct F as [L F].
  assert (Hrc : nth vrc (upd_nth e vrc c) 0 = nth i KeccakRoundConstants 0).
  { rewrite nth_upd_nth, Nat.eqb_refl, L. reflexivity. }
  destruct (round_ok wavx _ _ _ vrc i _ Hc F1 Hi Hrc) as (F' & _ & _ & W). split; [exact F'|]. rewrite W. f_equal. f_equal.
  unfold sub. apply (nth_ext _ _ 0 0).
  - rewrite !firstn_length, !skipn_length, upd_nth_length. reflexivity.
  - intros n Hn. rewrite firstn_length in Hn. rewrite !nth_firstn_lt, !nth_skipn_add by lia. rewrite nth_upd_nth.
    destruct (Nat.eqb_spec (32 * X + n) vrc) as [E1|]; auto. unfold vrc in E1. lia.
Qed.

Lemma avx_round i e : (i < 20)%nat -> fits wavx e ->
  fits wavx (run (vr i) e) /\
  wbits (sub (32 * vside (S i)) 25 (run (vr i) e)) = k_round false true xorb andb i (wbits (sub (32 * vside i) 25 e)).
Proof.
  intros Hi F. rewrite vside_S. unfold vside, vr. destruct (Nat.even i).
  - exact (avx_round_gen i rS rE e Hi avx_check_SE ltac:(unfold rS; lia) F).
  - exact (avx_round_gen i rE rS e Hi avx_check_ES ltac:(unfold rE; lia) F).
Qed.
Lemma avx_indep i e e' : same_reg (vside i) e e' -> same_reg (vside (S i)) (run (vr i) e) (run (vr i) e').
Proof.
  intros H. rewrite vside_S. unfold vside, vr in *. destruct (Nat.even i).
  - exact (dbu_reg_run _ rS rE e e' (avx_dbu_i1 i) H).
  - exact (dbu_reg_run _ rE rS e e' (avx_dbu_i2 i) H).
Qed.

Lemma avx_fold n i e e' : (i + n <= 20)%nat -> fits wavx e -> same_reg (vside i) e e' ->
  fits wavx (run (flat_map vr (seq i n)) e) /\
  same_reg (vside (i + n)) (run (flat_map vr (seq i n)) e) (run (flat_map vr (seq i n)) e') /\
  wbits (sub (32 * vside (i + n)) 25 (run (flat_map vr (seq i n)) e)) =
  fold_left (fun A ir => k_round false true xorb andb ir A) (seq i n) (wbits (sub (32 * vside i) 25 e)).
Proof.
  revert i e e'. induction n as [|n IH]; intros i e e' Hi F Hs.
  - cbn [seq flat_map fold_left]. rewrite Nat.add_0_r. split; [exact F|]. split; [exact Hs|reflexivity].
  - cbn [seq flat_map fold_left]. rewrite !run_app. destruct (avx_round i e ltac:(lia) F) as [F1 W1].
    destruct (IH (S i) _ _ ltac:(lia) F1 (avx_indep i e e' Hs)) as (F2 & S2 & W2).
    replace (i + S n)%nat with (S i + n)%nat by lia. split; [exact F2|]. split; [exact S2|]. rewrite W2, W1. reflexivity.
Qed.

Lemma vrounds_ok n e e' : (n <= 20)%nat -> Nat.even n = true -> fits wavx e -> same_reg rS e e' ->
  fits wavx (run (vrounds_from (20 - n)) e) /\
  same_reg rS (run (vrounds_from (20 - n)) e) (run (vrounds_from (20 - n)) e') /\
  wbits (sub 0 25 (run (vrounds_from (20 - n)) e)) = keccak_p_bits false true xorb andb n (wbits (sub 0 25 e)).
Proof.
  intros Hn He F Hs. unfold vrounds_from.
  assert (E1 : vside (20 - n) = rS). { unfold vside. rewrite Nat.even_sub, He by lia. reflexivity. }
  rewrite <- E1 in Hs. destruct (avx_fold n (20 - n) e e' ltac:(lia) F Hs) as (F1 & S1 & W1).
  replace (20 - n + n)%nat with 20%nat in * by lia. rewrite E1 in W1. change (vside 20) with rS in *. change (32 * rS)%nat with 0%nat in *.
  replace (20 - (20 - n))%nat with n by lia. split; [exact F1|]. split; [exact S1|exact W1].
Qed.

Lemma avx_copy_check : check wavx 0 (vset rS (fun i => V (lane rE i))) [] (map (fun i => (i, 32 + i)%nat) (seq 0 25)) = true.
Proof. vm_cast_no_check (eq_refl true). Qed.
Lemma vcopy_ok e : fits wavx e -> sub 0 25 (run (vset rS (fun i => V (lane rE i))) e) = sub 32 25 e.
Proof.
  intros [L F]. pose proof (check_sound wavx 0 _ [] _ e avx_copy_check L F) as E. unfold ninit in E. rewrite app_nil_r in E.
  change (length wavx) with 385%nat in L.
  assert (Lr : length (run (vset rS (fun i => V (lane rE i))) e) = 385%nat) by now rewrite run_length.
  apply (nth_ext_le _ _ 0); rewrite !sub_length by lia; auto. intros i Hi. rewrite !sub_nth by auto.
  apply (E (i, 32 + i)%nat). apply in_map_iff. exists i. split; auto. apply in_seq. lia.
Qed.
Lemma vrounds1_ok e e' : fits wavx e -> same_reg rS e e' ->
  fits wavx (run vrounds1X e) /\ same_reg rS (run vrounds1X e) (run vrounds1X e') /\
  wbits (sub 0 25 (run vrounds1X e)) = keccak_p_bits false true xorb andb 1 (wbits (sub 0 25 e)).
Proof.
  intros F Hs. unfold vrounds1X. rewrite !run_app.
  destruct (avx_round_gen 19 rS rE e ltac:(lia) avx_check_SE ltac:(unfold rS; lia) F) as [F1 W1].
  split; [exact (wcheck_sound wavx _ _ avx_copy_wid F1)|]. split.
  - exact (dbu_reg_run _ rE rS _ _ avx_dbu_copy (dbu_reg_run _ rS rE e e' (avx_dbu_i1 19) Hs)).
  - rewrite vcopy_ok by auto. exact W1.
Qed.

Lemma kavx_rounds_ok r e e' : k64_r r -> fits wavx e -> same_reg rS e e' ->
  fits wavx (run (kavx_rounds r) e) /\ same_reg rS (run (kavx_rounds r) e) (run (kavx_rounds r) e') /\
  wbits (sub 0 25 (run (kavx_rounds r) e)) = keccak_p_bits false true xorb andb (N.to_nat r) (wbits (sub 0 25 e)).
Proof.
  intros Hr F Hs. destruct Hr as [->|[->|[->|[->| ->]]]].
  - exact (vrounds_ok 20 e e' ltac:(lia) eq_refl F Hs).
  - exact (vrounds_ok 16 e e' ltac:(lia) eq_refl F Hs).
  - exact (vrounds_ok 12 e e' ltac:(lia) eq_refl F Hs).
  - exact (vrounds_ok 8 e e' ltac:(lia) eq_refl F Hs).
  - exact (vrounds1_ok e e' F Hs).
Qed.

Lemma of_lanes_length ws : length (of_lanes ws) = (2 * length ws)%nat.
Proof. unfold of_lanes. induction ws as [|w ws IH]; auto. cbn [map concat]. rewrite app_length, word_le_length, IH. cbn [length]. lia. Qed.
Lemma of_lanes_firstn n ws : firstn (2 * n) (of_lanes ws) = of_lanes (firstn n ws).
Proof.
  revert ws. induction n as [|n IH]; intros ws; [reflexivity|]. destruct ws as [|w ws]; [now rewrite firstn_nil|].
  replace (2 * S n)%nat with (2 + 2 * n)%nat by lia. unfold of_lanes in *. cbn [firstn map concat].
  replace 2%nat with (length (word_le 2 w)) at 1 by apply word_le_length. rewrite firstn_app_2. now rewrite IH.
Qed.
Lemma bytes_of_lanes ws : bytes (of_lanes ws).
Proof. apply Forall_concat. apply Forall_map, Forall_forall. intros. apply bytes_word_le. Qed.

(* The permutation as a function of the 64 bytes alone. *)
Definition kavx_p (r : N) (s : list N) : list N := kavx_perm (repeat 0 353) r s.
Theorem kavx_ok scr r s : k64_r r -> length scr = 353%nat -> Forall (fun w => (w < 2 ^ 16)%N) scr -> bytes s -> length s = 64%nat ->
  kavx_perm scr r s = kavx_p r s /\ bytes (kavx_p r s) /\ length (kavx_p r s) = 64%nat /\
  firstn 50 (kavx_p r s) = keccak_p (N.to_nat r) (firstn 50 s).
Proof.
  intros Hr Ls Fs B L. unfold kavx_p.
  set (ws := map le_word (chunks 2 s)).
  assert (W1 : length ws = 32%nat) by (apply lanes_length; exact L).
  assert (W2 : Forall (fun w => w < 2 ^ 16) ws).
  { unfold ws. destruct (chunks_length_mult 2 32 s) as [_ H2]; [lia|auto|]. pose proof (chunks_Forall _ 2 _ B) as H3.
    apply Forall_map. rewrite Forall_forall in *. intros x Hx.
    replace 16 with (8 * N.of_nat (length x)) by (rewrite (H2 x Hx); reflexivity). apply le_word_lt. apply (H3 x Hx). }
  assert (Fit : forall u, length u = 353%nat -> Forall (fun w => w < 2 ^ 16) u -> fits wavx (ws ++ u)).
  { intros u Lu Fu. split; [rewrite app_length, W1, Lu; reflexivity|]. intros j Hj. change (length wavx) with 385%nat in Hj.
    replace (nth j wavx 0%nat) with 16%nat by (symmetry; apply (repeat_spec 385); apply nth_In; exact Hj).
    apply (Forall_nth_lt (fun w => w < 2 ^ 16)); [apply Forall_app; split; assumption|rewrite app_length; lia]. }
  assert (Z : Forall (fun w => w < 2 ^ 16) (repeat 0 353)).
  { apply Forall_forall. intros w Hw. apply repeat_spec in Hw. subst w. reflexivity. }
  pose proof (Fit (repeat 0 353) (repeat_length _ _) Z) as F0. pose proof (Fit scr Ls Fs) as F1.
  assert (Sm : same_reg rS (ws ++ repeat 0 353) (ws ++ scr)).
  { split; [rewrite !app_length, Ls, repeat_length; reflexivity|]. intros i Hi. unfold lane, rS. now rewrite !app_nth1 by lia. }
  destruct (kavx_rounds_ok r _ _ Hr F0 Sm) as (F2 & [S1 S2] & Wb).
  set (e0 := run (kavx_rounds r) (ws ++ repeat 0 353)) in *.
  assert (L0 : length e0 = 385%nat) by (unfold e0; rewrite run_length; apply F0).
  split.
  - unfold kavx_perm. fold ws. fold e0. f_equal. f_equal. symmetry. apply (nth_ext_le _ _ 0).
    + rewrite !firstn_length. lia.
    + intros i Hi. rewrite firstn_length in Hi. rewrite !nth_firstn_lt by lia. apply (S2 i). lia.
  - unfold kavx_perm. fold ws. fold e0. change (concat (map (word_le 2) ?x)) with (of_lanes x).
    split; [apply bytes_of_lanes|]. split; [rewrite of_lanes_length, firstn_length; lia|].
    change 50%nat with (2 * 25)%nat at 1. rewrite of_lanes_firstn, firstn_firstn. change (Nat.min 25 32) with 25%nat.
    apply lanes_bytes.
    + destruct Hr as [->|[->|[->|[->| ->]]]]; cbn; lia.
    + now apply bytes_firstn.
    + rewrite firstn_length. lia.
    + change 50%nat with (2 * 25)%nat. rewrite <- lanes_firstn. fold ws.
      replace (firstn 25 ws) with (sub 0 25 (ws ++ repeat 0 353)); [exact Wb|].
      unfold sub. cbn [skipn]. rewrite firstn_app. replace (25 - length ws)%nat with 0%nat by lia. now rewrite firstn_O, app_nil_r.
Qed.
