(* Halfwords and bytes of the state, and the word programs of KArmPerm.v against the memory of ArmIsa.v. Proofs only. *)
From Verif Require Import Base Prog SpecPerm Words RefPerm ArmIsa ArmAsm VocabAsm ArmSim ArmLoop ArmFun KArmPermProof.
From Verif Require K64Perm.
From Verif Require KArmPerm.
Open Scope N_scope.

(* ---------- halfwords and bytes ---------- *)

Definition halves (g : N -> N) (a : N) (n : nat) : list N := map (fun l => hw g (a + 2 * N.of_nat l)) (seq 0 n).
Lemma halves_length g a n : length (halves g a n) = n.
Proof. unfold halves. now rewrite map_length, seq_length. Qed.
Lemma nth_halves g a n i : (i < n)%nat -> nth i (halves g a n) 0 = hw g (a + 2 * N.of_nat i).
Proof.
  intros Hi. unfold halves. rewrite (nth_indep _ 0 ((fun l => hw g (a + 2 * N.of_nat l)) 0%nat)) by now rewrite map_length, seq_length.
  now rewrite (map_nth (fun l => hw g (a + 2 * N.of_nat l))), seq_nth.
Qed.
Lemma bytes_at_bytes m a n : (forall x, me m x < 256) -> bytes (bytes_at m a n).
Proof. intros H. unfold bytes_at. apply Forall_forall. intros x Hx. apply in_map_iff in Hx as (i & <- & _). apply H. Qed.
Lemma halves_bytes m a n : (forall x, me m x < 256) -> concat (map (word_le 2) (halves (me m) a n)) = bytes_at m a (2 * n).
Proof.
  intros H. induction n as [|n IH]; [reflexivity|]. unfold halves in *. rewrite seq_S, !map_app, concat_app, IH.
  replace (2 * S n)%nat with (S (S (2 * n))) by lia. rewrite !bytes_at_S, <- app_assoc. f_equal. cbn [map concat app Nat.add].
  unfold hw. rewrite word_le_le_word; [|repeat (constructor; [apply H|]); constructor|reflexivity]. cbn [app].
  replace (a + 2 * N.of_nat n) with (a + N.of_nat (2 * n)) by lia.
  replace (a + N.of_nat (2 * n) + 1) with (a + N.of_nat (S (2 * n))) by lia. reflexivity.
Qed.
Lemma halves_chunks m a n : (forall x, me m x < 256) -> map le_word (chunks 2 (bytes_at m a (2 * n))) = halves (me m) a n.
Proof.
  intros H. rewrite <- halves_bytes by exact H. rewrite chunks_concat; [|lia|].
  - rewrite map_map. erewrite map_ext_in; [apply map_id|]. intros v Hv. apply le_word_word_le. apply in_map_iff in Hv as (i & <- & _).
    apply (hw_lt _ _ H).
  - apply Forall_forall. intros x Hx. apply in_map_iff in Hx as (v & <- & _). apply word_le_length.
Qed.
Lemma has_table_hw tab t m i : (forall x, me m x < 256) -> length t = 21%nat -> Forall (fun v => v < 2 ^ 16) t -> has_table tab t m -> (i < 21)%nat ->
  hw (me m) (tab + 2 * N.of_nat i) = nth i t 0.
Proof.
  intros H L F T Hi. rewrite <- (nth_halves (me m) tab 21 i Hi). f_equal. rewrite <- halves_chunks by exact H.
  unfold has_table in T. change (2 * 21)%nat with 42%nat. rewrite T, chunks_concat; [|lia|].
  - rewrite map_map. erewrite map_ext_in; [apply map_id|]. intros v Hv. apply le_word_word_le. rewrite Forall_forall in F. apply (F v Hv).
  - apply Forall_forall. intros x Hx. apply in_map_iff in Hx as (v & <- & _). apply word_le_length.
Qed.

Lemma nth_repeat0 n i : nth i (repeat 0 n) 0 = 0.
Proof. revert i. induction n as [|n IH]; intros [|i]; cbn [repeat nth]; auto. Qed.

Definition env0 (g : N -> N) (sb fb : N) : list N := halves g sb 25 ++ halves g fb 25 ++ repeat 0 14.
Lemma env0_length g sb fb : length (env0 g sb fb) = 64%nat.
Proof. unfold env0. rewrite !app_length, !halves_length, repeat_length. reflexivity. Qed.

Lemma core A mid n m m' sb fb e' : arm_ok A mid -> (forall i, (i < 20)%nat -> nth i K64Perm.KeccakF400RoundConstants 0 <> KArmPerm.a_term A) ->
  (0 < n <= 20)%nat -> (forall x, me m x < 256) -> (forall x, me m' x < 256) ->
  KArmPerm.a_perm A (N.of_nat n) (env0 (me m) sb fb) = Some e' -> (forall l, (l < 25)%nat -> hw (me m') (sb + 2 * N.of_nat l) = nth l e' 0) ->
  bytes_at m' sb 50 = keccak_p n (bytes_at m sb 50).
Proof.
  intros HA Ht Hn Hm Hm' E Hl.
  assert (Hs : ascr_ok (halves (me m) fb 25 ++ repeat 0 14)).
  { split; [now rewrite app_length, halves_length, repeat_length|]. intros j Hj.
    destruct (Nat.lt_ge_cases j 25) as [H1|H1].
    - rewrite app_nth1 by now rewrite halves_length. rewrite nth_halves by exact H1.
      eapply N.lt_le_trans; [apply (hw_lt _ _ Hm)|]. apply N.pow_le_mono_r; [discriminate|].
      clear - H1. do 25 (destruct j as [|j]; [cbn; discriminate|]). lia.
    - rewrite app_nth2 by (rewrite halves_length; lia). rewrite nth_repeat0. apply N.neq_0_lt_0, N.pow_nonzero. discriminate. }
  destruct (arm_perm_ok A mid HA Ht _ n (bytes_at m sb 50) Hn Hs (bytes_at_bytes m sb 50 Hm) (bytes_at_length m sb 50)) as (ws & Ew & Lw & K).
  rewrite <- K. clear K. unfold KArmPerm.a_perm_lanes in Ew. change 50%nat with (2 * 25)%nat in Ew. rewrite halves_chunks in Ew by exact Hm.
  fold (env0 (me m) sb fb) in Ew. rewrite E in Ew. apply some_inj in Ew. subst ws.
  change 50%nat with (2 * 25)%nat. rewrite <- halves_bytes by exact Hm'. do 2 f_equal.
  apply (nth_ext _ _ 0 0); [now rewrite halves_length, Lw|]. intros i Hi. rewrite halves_length in Hi.
  rewrite nth_halves by exact Hi. rewrite Hl by exact Hi. clear - Hi. revert e'. revert Hi. generalize 25%nat as k.
  induction i as [|i IH]; intros [|k] Hi [|x e']; cbn; try lia; auto. apply IH. lia.
Qed.

Lemma rel_start sb fb tp rco k m : sane m -> (forall r, (r < 15)%nat -> nth r k Junk <> Var /\ holdsk sb fb tp (nth r k Junk) (rf m r) 0) ->
  rel sb fb tp rco k (rf m) (me m) (upd_nth (env0 (me m) sb fb) 63 (hw (me m) (tp + rco))).
Proof.
  intros [Sr Sm] H. constructor; try assumption.
  - now rewrite upd_nth_length, env0_length.
  - intros r Hr. destruct (H r Hr) as [H1 H2]. destruct (nth r k Junk); try exact H2. now elim H1.
  - intros l Hl. rewrite nth_upd_nth. destruct (Nat.eqb_spec l 63); [lia|]. unfold env0. rewrite app_nth1 by now rewrite halves_length.
    now rewrite nth_halves.
  - intros l Hl. rewrite nth_upd_nth. destruct (Nat.eqb_spec (25 + l) 63); [lia|]. unfold env0. rewrite app_nth2 by (rewrite halves_length; lia).
    rewrite halves_length. replace (25 + l - 25)%nat with l by lia. rewrite app_nth1 by now rewrite halves_length. now rewrite nth_halves.
  - rewrite nth_upd_nth, env0_length. reflexivity.
Qed.

Lemma table7_ok : table7 = KArmPerm.a_table KArmPerm.armv7m. Proof. reflexivity. Qed.
Lemma table6_ok : table6 = KArmPerm.a_table KArmPerm.armv6m. Proof. reflexivity. Qed.
Lemma t16_7 : Forall (fun v => v < 2 ^ 16) table7. Proof. repeat constructor. Qed.
Lemma t16_6 : Forall (fun v => v < 2 ^ 16) table6. Proof. repeat constructor. Qed.

Lemma shl31 n : (n <= 20)%nat -> (w32 (N.shiftl (N.of_nat n) 31) =? 0) = Nat.even n.
Proof. intros H. do 21 (destruct n as [|n]; [reflexivity|]). lia. Qed.
Lemma shl1 n : (n <= 20)%nat -> w32 (N.shiftl (N.of_nat n) 1) = 2 * N.of_nat n.
Proof. intros H. do 21 (destruct n as [|n]; [reflexivity|]). lia. Qed.
Lemma w32_sub a b : b <= a -> a < 2 ^ 32 -> w32 (a + 2 ^ 32 - b) = a - b.
Proof.
  intros H1 H2. unfold w32. replace (a + 2 ^ 32 - b) with (a - b + 1 * 2 ^ 32) by lia. rewrite N.mod_add by discriminate. apply N.mod_small. lia.
Qed.

Lemma sane_setr m d v : sane m -> v < 2 ^ 32 -> sane (setr m d v).
Proof. intros [S1 S2] H. split; [|exact S2]. intros r. cbn [setr rf]. unfold set. destruct (r =? d)%nat; auto. Qed.
Lemma sane_setf m z c : sane m -> sane (setf m z c).
Proof. intros S; exact S. Qed.
Lemma sane_see m e : sane m -> sane (see m e).
Proof. intros S; exact S. Qed.

Lemma apart_or a n b k : apart a n b k -> 0 < n -> 0 < k -> a + n <= b \/ b + k <= a.
Proof.
  intros H Hn Hk. destruct (N.le_gt_cases (a + n) b); [auto|]. destruct (N.le_gt_cases (b + k) a); [auto|]. exfalso.
  destruct (N.le_gt_cases a b); [apply (H b)|apply (H a)]; lia.
Qed.
