(* The permutation of isapa128av20/bi_32_armv7m is Ascon-p with the lanes rotated by three places after every round. Proofs only, apart from the
   checker. *)
From Verif Require Import Base Prog Poly SpecPerm Words AsconProof OptPerm OptRep OptPermProof OptLanes VocabV7m.
Open Scope N_scope.

(* As check_round, output o being compared with output sg o. *)
Definition check_round_at (sg : nat -> nat) (f : nat -> nat) (n : nat) (p : prog) : bool :=
  progok p && progok std_round &&
  (let a := srun p (map (sperm f) lanes_in ++ repeat [] n) in
   let b := srun std_round (lanes_in ++ repeat [] 4) in
   forallb (fun o => seqb (nth o a []) (sperm f (nth (sg o) b []))) (seq 0 5)).

Lemma check_round_at_sound sg f n p : check_round_at sg f n p = true -> (forall i, (i < 5)%nat -> (sg i < 5)%nat) ->
  forall ws c, words5 ws -> c < 256 ->
  firstn 5 (run p (map (permw f) ws ++ [permw f c] ++ repeat 0 n)) = map (permw f) (map (fun i => nth (sg i) (ascon_round c ws) 0) (seq 0 5)).
Proof.
  unfold check_round_at. rewrite !andb_true_iff. intros [[Hp Hq] Ho] Hsg ws c Hs Hc.
  pose proof (proj1 Hs) as Hl.
  pose proof (lanes_in_spec ws c Hs Hc) as Hin.
  rewrite <- (run_std_round ws c Hs) by (unfold w64; lia).
  rewrite app_assoc. change ([permw f c]) with (map (permw f) [c]). rewrite <- map_app.
  assert (Hlen : length lanes_in = length (ws ++ [c])) by (rewrite app_length, Hl; reflexivity).
  set (rr := ws ++ [c]) in *.
  assert (Hpin : forall x, srel (vinput rr) (nth x (map (sperm f) lanes_in) []) (nth x (map (permw f) rr) 0)).
  { intros x. destruct (Nat.ltb_spec x (length rr)).
    - assert (E1 : nth x (map (sperm f) lanes_in) [] = sperm f (nth x lanes_in [])) by (apply nth_map_lt; lia).
      assert (E2 : nth x (map (permw f) rr) 0 = permw f (nth x rr 0)) by (apply nth_map_lt; lia).
      intros i. rewrite E1, E2. apply sperm_spec, Hin.
    - rewrite !nth_overflow by (rewrite map_length; lia). apply szero_spec. }
  replace (ws ++ [c; 0; 0; 0; 0]) with (rr ++ repeat 0 4) by (unfold rr; now rewrite <- app_assoc).
  pose proof (srun_sound (vinput rr) p (map (sperm f) lanes_in ++ repeat [] n) (map (permw f) rr ++ repeat 0 n) Hp) as R1.
  pose proof (srun_sound (vinput rr) std_round (lanes_in ++ repeat [] 4) (rr ++ repeat 0 4) Hq) as R2.
  assert (L1 : length (run p (map (permw f) rr ++ repeat 0 n)) = (6 + n)%nat).
  { rewrite run_length, app_length, map_length, repeat_length. unfold rr. rewrite app_length, Hl. reflexivity. }
  assert (L2 : length (run std_round (rr ++ repeat 0 4)) = 10%nat).
  { rewrite run_length, app_length, repeat_length. unfold rr. rewrite app_length, Hl. reflexivity. }
  apply (nth_ext_le _ _ 0).
  - rewrite !map_length, seq_length, firstn_length. lia.
  - intros i Hi. rewrite firstn_length in Hi. rewrite nth_firstn_lt by lia.
    assert (Hi5 : (i < 5)%nat) by lia. specialize (Hsg i Hi5).
    rewrite (nth_map_lt _ _ _ 0) by (rewrite map_length, seq_length; lia).
    rewrite (nth_map_lt _ _ _ 0%nat) by (rewrite seq_length; lia). rewrite seq_nth by lia. cbn [Nat.add].
    rewrite nth_firstn_lt by lia.
    rewrite forallb_forall in Ho. specialize (Ho i). cbv zeta in Ho.
    eapply srel_eq; [| |apply Ho; apply in_seq; lia].
    + apply R1; [rewrite !app_length, !map_length, !repeat_length; lia|].
      apply srel_tail; [rewrite !map_length; lia|exact Hpin].
    + apply sperm_spec, R2; [rewrite !app_length, !repeat_length; lia|].
      now apply srel_tail.
Qed.

Definition sg3 (i : nat) : nat := ((i + 3) mod 5)%nat.
Lemma ck_armv7m : check_round_at sg3 f_bi32 15 ROUND_armv7m = true. Proof. vm_compute. reflexivity. Qed.

Lemma rot3_words ws : words5 ws -> words5 (rot3 ws) /\ map (fun i => nth (sg3 i) ws 0) (seq 0 5) = rot3 ws.
Proof.
  intros H. destruct (words5_inv ws H) as (a & b & c & d & e & -> & Ha & Hb & Hc & Hd & He). split; [|reflexivity].
  split; [reflexivity|]. repeat constructor; assumption.
Qed.

Lemma v7m_round ws c : words5 ws -> c < 256 ->
  firstn 5 (run ROUND_armv7m (map (permw f_bi32) ws ++ [permw f_bi32 c] ++ repeat 0 15)) = map (permw f_bi32) (rot3 (ascon_round c ws)).
Proof.
  intros H Hc. rewrite (check_round_at_sound sg3 f_bi32 15 ROUND_armv7m ck_armv7m) by (auto; intros i Hi; unfold sg3; lia).
  rewrite (proj2 (rot3_words _ (ascon_round_words c ws))). reflexivity.
Qed.

Lemma rounds_any f n p (R : N -> list N -> list N) :
  (forall ws c, words5 ws -> c < 256 -> firstn 5 (run p (map (permw f) ws ++ [permw f c] ++ repeat 0 n)) = map (permw f) (R c ws) /\ words5 (R c ws)) ->
  forall cs ws, words5 ws -> Forall (fun c => c < 256) cs ->
  rounds p n (map (permw f) cs) (map (permw f) ws) = map (permw f) (fold_left (fun s c => R c s) cs ws).
Proof.
  intros H cs. induction cs as [|c cs IH]; intros ws Hw Hc; auto.
  inversion Hc; subst. unfold rounds in *. cbn [map fold_left]. destruct (H ws c) as [-> W]; auto.
Qed.

Lemma v7m_rounds cs ws : words5 ws -> Forall (fun c => c < 256) cs ->
  rounds ROUND_armv7m 15 (map (permw f_bi32) cs) (map (permw f_bi32) ws) = map (permw f_bi32) (fold_left (fun s c => rot3 (ascon_round c s)) cs ws).
Proof.
  apply (rounds_any f_bi32 15 ROUND_armv7m (fun c ws => rot3 (ascon_round c ws))).
  intros ws' c Hw Hc. split; [now apply v7m_round|]. apply rot3_words, ascon_round_words.
Qed.

Lemma v7m_sched : check_sched f_bi32 sched_bi rounds_used = true. Proof. vm_compute. reflexivity. Qed.

Lemma v7m_perm r ws : In r rounds_used -> words5 ws ->
  PROUNDS bi_32_armv7m (N.of_nat r) (map (permw f_bi32) ws) = map (permw f_bi32) (v7m_words r ws).
Proof.
  intros Hi Hw. pose proof v7m_sched as Hs. unfold check_sched in Hs. rewrite forallb_forall in Hs. specialize (Hs r Hi).
  destruct (list_eq_dec _ _ _) as [E|]; [|discriminate].
  change (PROUNDS bi_32_armv7m (N.of_nat r) (map (permw f_bi32) ws)) with (rounds ROUND_armv7m 15 (sched_bi (N.of_nat r)) (map (permw f_bi32) ws)).
  rewrite E. apply v7m_rounds; [exact Hw|apply rc_small].
Qed.

Lemma v7m_words5 r ws : words5 ws -> words5 (v7m_words r ws).
Proof.
  unfold v7m_words. generalize (skipn (12 - r) ascon_rc) as l.
  intros l; revert ws; induction l as [|c l IH]; intros ws Hs; cbn [fold_left]; auto.
  apply IH. apply rot3_words, ascon_round_words.
Qed.

Lemma wf40_v7m r s : wf40 s -> wf40 (v7m_p r s).
Proof.
  intros W. pose proof (v7m_words5 r _ (lanes_words s W)) as [H1 H2]. unfold v7m_p. fold (lanes s). split.
  - rewrite (concat_length_const 8).
    + now rewrite map_length, H1.
    + apply Forall_map, Forall_forall. intros. apply word_be_length.
  - apply Forall_concat. apply Forall_map, Forall_forall. intros. apply bytes_word_be.
Qed.

Lemma lanes_v7m r s : wf40 s -> lanes (v7m_p r s) = v7m_words r (lanes s).
Proof.
  intros H. unfold v7m_p, lanes at 1. fold (lanes s).
  pose proof (v7m_words5 r _ (lanes_words s H)) as [H1 H2].
  rewrite chunks_concat; [|lia|].
  - rewrite map_map. rewrite <- (map_id (v7m_words r (lanes s))) at 2. apply map_ext_in.
    intros w Hw. apply be_word_word_be. rewrite Forall_forall in H2. apply (H2 w Hw).
  - apply Forall_map, Forall_forall. intros. apply word_be_length.
Qed.

Lemma stf_v7m r s : In r rounds_used -> wf40 s ->
  PROUNDS bi_32_armv7m (N.of_nat r) (stf f_bi32 s) = stf f_bi32 (v7m_p r s).
Proof.
  intros Hr Hs. unfold stf at 1. rewrite v7m_perm by (auto; now apply lanes_words).
  unfold stf. now rewrite lanes_v7m.
Qed.

(* The conversions are those of bi_32_armv6. *)
Lemma v7m_in v : U64TOWORD bi_32_armv7m v = U64TOWORD bi_32_armv6 v.
Proof. unfold bi_32_armv7m, bi_32_armv6, bi_asconp. cbn [U64TOWORD]. reflexivity. Qed.
Lemma v7m_out v : WORDTOU64 bi_32_armv7m v = WORDTOU64 bi_32_armv6 v.
Proof. unfold bi_32_armv7m, bi_32_armv6, bi_asconp. cbn [WORDTOU64]. reflexivity. Qed.
Lemma v7m_tobi v : TOBI bi_32_armv7m v = TOBI bi_32_armv6 v.
Proof. unfold bi_32_armv7m, bi_32_armv6, bi_asconp. cbn [TOBI]. reflexivity. Qed.
