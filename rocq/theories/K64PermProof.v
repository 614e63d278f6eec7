(* The Keccak-p[400] macros of opt_64 compute the permutation. Proofs only. *)
From Verif Require Import Base Prog Poly SpecPerm Words RefPerm KeccakProof KRound K64Perm.
Open Scope N_scope.

Definition w64 : list nat := repeat 16%nat 86.

Lemma k64_check_SE : rcheck w64 (prepareTheta SA ++ round_macro true SA SE) SA SE vRC = true.
Proof. vm_cast_no_check (eq_refl true). Qed.
Lemma k64_check_ES : rcheck w64 (prepareTheta SE ++ round_macro true SE SA) SE SA vRC = true.
Proof. vm_cast_no_check (eq_refl true). Qed.
Lemma k64_check_last : rcheck w64 (prepareTheta SE ++ round_macro false SE SA) SE SA vRC = true.
Proof. vm_cast_no_check (eq_refl true). Qed.
Lemma k64_par_SE : same_vars w64 (round_macro true SA SE) (round_macro true SA SE ++ prepareTheta SE) (seq 0 86) = true.
Proof. vm_cast_no_check (eq_refl true). Qed.
Lemma k64_par_ES : same_vars w64 (round_macro true SE SA) (round_macro true SE SA ++ prepareTheta SA) (seq 0 86) = true.
Proof. vm_cast_no_check (eq_refl true). Qed.
Lemma k64_fresh : pfresh vRC (prepareTheta SA) = true /\ pfresh vRC (prepareTheta SE) = true.
Proof. vm_compute. auto. Qed.
Lemma k64_wid_SA : wcheck w64 (prepareTheta SA) = true.
Proof. vm_cast_no_check (eq_refl true). Qed.
Lemma k64_idem : same_vars w64 (prepareTheta SA) (prepareTheta SA ++ prepareTheta SA) (seq 0 86) = true.
Proof. vm_cast_no_check (eq_refl true). Qed.

Definition rcs : list N := KeccakF400RoundConstants.
Lemma rcs_ok : KeccakF400RoundConstants = KeccakRoundConstants.
Proof. reflexivity. Qed.
Lemma rcs_lt i : nth i KeccakF400RoundConstants 0 < 2 ^ N.of_nat 16.
Proof. do 20 (destruct i as [|i]; [reflexivity|]). cbn [nth KeccakF400RoundConstants]. destruct i; reflexivity. Qed.

(* The parities in Ca..Cu are those of the copy X of the state. *)
Definition par (X : nat) (e : env) : Prop := fits w64 e /\ run (prepareTheta X) e = e.

Lemma run_rc pt i X Y e : run (round_i pt i X Y) e = run (round_macro pt X Y) (upd_nth e vRC (nth i KeccakF400RoundConstants 0)).
Proof. reflexivity. Qed.

Lemma k64_round_gen pt i X Y e : (i < 20)%nat -> pfresh vRC (prepareTheta X) = true ->
  rcheck w64 (prepareTheta X ++ round_macro pt X Y) X Y vRC = true -> X = SA \/ X = SE -> par X e ->
  let e' := run (round_i pt i X Y) e in
  fits w64 e' /\ wbits (sub Y 25 e') = k_round false true xorb andb i (wbits (sub X 25 e)).
Proof.
  intros Hi Hf Hc HX [F P] e'. subst e'.
  rewrite run_rc.
  set (c := nth i KeccakF400RoundConstants 0).
  assert (F1 : fits w64 (upd_nth e vRC c)). { apply fits_upd; auto. unfold c. exact (rcs_lt i). }
  assert (E : run (round_macro pt X Y) (upd_nth e vRC c) = run (prepareTheta X ++ round_macro pt X Y) (upd_nth e vRC c)).
  { rewrite run_app, (run_fresh vRC (prepareTheta X) e c Hf), P. reflexivity. }
  rewrite E. destruct F as [L F].
  assert (Hrc : nth vRC (upd_nth e vRC c) 0 = nth i KeccakRoundConstants 0).
  { rewrite nth_upd_nth, Nat.eqb_refl, L. reflexivity. }
  destruct (round_ok w64 _ X Y vRC i _ Hc F1 Hi Hrc) as (F' & _ & _ & W). split; [exact F'|]. rewrite W. f_equal. f_equal.
  unfold sub. apply (nth_ext _ _ 0 0).
  - rewrite !firstn_length, !skipn_length, upd_nth_length. reflexivity.
  - intros n Hn. rewrite firstn_length in Hn. rewrite !nth_firstn_lt, !nth_skipn_add by lia. rewrite nth_upd_nth.
    destruct (Nat.eqb_spec (X + n) vRC) as [E1|]; auto. unfold vRC in E1. destruct HX as [-> | ->]; unfold SA, SE in E1; lia.
Qed.

Lemma par_upd X e c : pfresh vRC (prepareTheta X) = true -> c < 2 ^ N.of_nat 16 -> par X e -> par X (upd_nth e vRC c).
Proof. intros Hf Hc [F P]. split; [apply fits_upd; auto|]. rewrite run_fresh, P by auto. reflexivity. Qed.

Definition side (i : nat) : nat := if Nat.even i then SA else SE.
Definition round64 (i : nat) : prog := if Nat.even i then round_i true i SA SE else round_i true i SE SA.

Lemma k64_round i e : (i < 20)%nat -> par (side i) e ->
  par (side (S i)) (run (round64 i) e) /\
  wbits (sub (side (S i)) 25 (run (round64 i) e)) = k_round false true xorb andb i (wbits (sub (side i) 25 e)).
Proof.
  intros Hi P. destruct k64_fresh as [Hf1 Hf2]. unfold side, round64 in *. rewrite Nat.even_succ, <- Nat.negb_even.
  destruct (Nat.even i); cbn [negb].
  - destruct (k64_round_gen true i SA SE e Hi Hf1 k64_check_SE (or_introl eq_refl) P) as [F W].
    split; [|exact W]. split; [exact F|]. rewrite run_rc in *.
    rewrite <- run_app. symmetry. apply (same_all w64); [exact k64_par_SE|]. destruct P. apply fits_upd; auto. exact (rcs_lt i).
  - destruct (k64_round_gen true i SE SA e Hi Hf2 k64_check_ES (or_intror eq_refl) P) as [F W].
    split; [|exact W]. split; [exact F|]. rewrite run_rc in *.
    rewrite <- run_app. symmetry. apply (same_all w64); [exact k64_par_ES|]. destruct P. apply fits_upd; auto. exact (rcs_lt i).
Qed.

Lemma k64_rounds_fold n i e : (i + n <= 20)%nat -> par (side i) e ->
  par (side (i + n)) (run (flat_map round64 (seq i n)) e) /\
  wbits (sub (side (i + n)) 25 (run (flat_map round64 (seq i n)) e)) =
  fold_left (fun A ir => k_round false true xorb andb ir A) (seq i n) (wbits (sub (side i) 25 e)).
Proof.
  revert i e. induction n as [|n IH]; intros i e Hi P.
  - cbn [seq flat_map fold_left]. rewrite Nat.add_0_r. split; [exact P|reflexivity].
  - cbn [seq flat_map fold_left]. rewrite run_app. destruct (k64_round i e ltac:(lia) P) as [P1 W1].
    destruct (IH (S i) _ ltac:(lia) P1) as [P2 W2]. replace (i + S n)%nat with (S i + n)%nat by lia. split; [exact P2|].
    rewrite W2, W1. reflexivity.
Qed.

Lemma par_init e : fits w64 e -> par SA (run (prepareTheta SA) e).
Proof.
  intros F. split; [exact (wcheck_sound w64 _ e k64_wid_SA F)|]. rewrite <- run_app. symmetry.
  apply (same_all w64); [exact k64_idem|exact F].
Qed.

Lemma prep_keeps e : length e = 86%nat -> sub SA 25 (run (prepareTheta SA) e) = sub SA 25 e.
Proof.
  intros L. unfold sub, SA. cbn [skipn]. unfold run, prepareTheta. cbn [fold_left step].
  assert (G : forall l v x, (25 <= v)%nat -> firstn 25 (@upd_nth N l v x) = firstn 25 l).
  { intros l v x Hv. apply (nth_ext _ _ 0 0); rewrite !firstn_length, upd_nth_length; auto.
    intros n Hn. rewrite !nth_firstn_lt, nth_upd_nth by lia. destruct (Nat.eqb_spec n v); auto. lia. }
  rewrite !G by (unfold Ca, Ce, Ci, Co, Cu; lia). reflexivity.
Qed.

Lemma rounds_from_ok n e : (n <= 20)%nat -> Nat.even n = true -> n <> 0%nat -> fits w64 e ->
  wbits (sub SA 25 (run (rounds_from (20 - n)) e)) = keccak_p_bits false true xorb andb n (wbits (sub SA 25 e)).
Proof.
  intros Hn He H0 F. unfold rounds_from. rewrite !run_app. pose proof (par_init e F) as P.
  assert (Hs : side (20 - n) = SA). { unfold side. rewrite Nat.even_sub, He by lia. reflexivity. }
  rewrite <- Hs in P at 1.
  destruct (k64_rounds_fold (n - 1) (20 - n) _ ltac:(lia) P) as [P1 W1].
  replace (19 - (20 - n))%nat with (n - 1)%nat by lia.
  replace (20 - n + (n - 1))%nat with 19%nat in * by lia. change (side 19) with SE in *.
  set (e1 := run (flat_map round64 (seq (20 - n) (n - 1))) (run (prepareTheta SA) e)) in *.
  destruct (k64_round_gen false 19 SE SA e1 ltac:(lia) (proj2 k64_fresh) k64_check_last (or_intror eq_refl) P1) as [F2 W2].
  refine (eq_trans W2 _). rewrite W1, Hs. unfold keccak_p_bits.
  replace (seq (20 - n) n) with (seq (20 - n) (n - 1) ++ [19%nat]).
  - rewrite fold_left_app. cbn [fold_left]. rewrite prep_keeps by apply F. reflexivity.
  - replace n with (n - 1 + 1)%nat at 4 by lia. rewrite seq_app. f_equal. cbn [seq]. f_equal. lia.
Qed.

Lemma copy_ok e : length e = 86%nat -> sub SA 25 (run (copyState SA SE) e) = sub SE 25 e.
Proof.
  intros L. do 86 (destruct e as [|? e]; [discriminate|]). destruct e; [reflexivity|discriminate].
Qed.

Lemma rounds1X_ok e : fits w64 e ->
  wbits (sub SA 25 (run rounds1X e)) = keccak_p_bits false true xorb andb 1 (wbits (sub SA 25 e)).
Proof.
  intros F. unfold rounds1X. rewrite !run_app. pose proof (par_init e F) as P.
  destruct (k64_round_gen true 19 SA SE _ ltac:(lia) (proj1 k64_fresh) k64_check_SE (or_introl eq_refl) P) as [F2 W2].
  rewrite copy_ok by apply F2. rewrite W2, prep_keeps by apply F. reflexivity.
Qed.

(* Numbers of rounds the macros provide. *)
Definition k64_r (r : N) : Prop := r = 20 \/ r = 16 \/ r = 12 \/ r = 8 \/ r = 1.

Theorem k64_perm_ok scr r S : k64_r r -> length scr = 61%nat -> Forall (fun w => w < 2 ^ 16) scr -> bytes S -> length S = 50%nat ->
  k64_perm scr r S = keccak_p (N.to_nat r) S.
Proof.
  intros Hr Ls Fs HS L. unfold k64_perm. pose proof (words25_chunks S HS L) as [W1 W2].
  set (ws := map le_word (chunks 2 S)) in *.
  assert (F : fits w64 (ws ++ scr)).
  { split; [rewrite app_length, W1, Ls; reflexivity|]. intros j Hj. change (length w64) with 86%nat in Hj.
    replace (nth j w64 0%nat) with 16%nat by (symmetry; apply (repeat_spec 86); apply nth_In; exact Hj).
    apply (Forall_nth_lt (fun w => w < 2 ^ 16)); [apply Forall_app; split; assumption|rewrite app_length; lia]. }
  assert (E0 : sub SA 25 (ws ++ scr) = ws).
  { unfold sub, SA. cbn [skipn]. rewrite firstn_app, W1, Nat.sub_diag, firstn_O, app_nil_r. apply firstn_all2. lia. }
  apply lanes_bytes; auto; [destruct Hr as [->|[->|[->|[->| ->]]]]; lia|]. fold ws. rewrite <- E0 at 2.
  change (firstn 25 ?x) with (sub SA 25 x).
  destruct Hr as [->|[->|[->|[->| ->]]]]; unfold k64_rounds; cbn [N.eqb Pos.eqb].
  - apply (rounds_from_ok 20); auto; lia.
  - apply (rounds_from_ok 16); auto; lia.
  - apply (rounds_from_ok 12); auto; lia.
  - apply (rounds_from_ok 8); auto; lia.
  - apply rounds1X_ok; auto.
Qed.
