(* Lane representations of the optimised Ascon implementations as bit permutations of 64-bit words, and a checker for
   round functions working on represented lanes. Definitions and proofs; models no code of /repo. *)
From Verif Require Import Base Prog Poly SpecPerm Words AsconProof.
From Verif Require RefPerm.
Open Scope N_scope.

(* The word whose bit j is bit f j of v. *)
Definition permw (f : nat -> nat) (v : N) : N := mkword 64 (fun j => bit v (f j)).
(* Plain representation; even bits in the low half and odd bits in the high half; bit i of byte b is bit b of byte i;
   byte order reversed. *)
Definition f_id (j : nat) : nat := j.
Definition f_bi32 (j : nat) : nat := if (j <? 32)%nat then (2 * j)%nat else (2 * (j - 32) + 1)%nat.
Definition f_bi32_inv (j : nat) : nat := (if (j mod 2 =? 0) then j / 2 else 32 + j / 2)%nat.
Definition f_bi8 (j : nat) : nat := (8 * (j mod 8) + j / 8)%nat.
Definition f_swap (j : nat) : nat := (8 * (7 - j / 8) + j mod 8)%nat.

Lemma permw_w64 f v : w64 (permw f v).
Proof. apply mkword_lt. Qed.

Lemma tb_permw f v i : N.testbit (permw f v) i = (i <? 64) && bit v (f (N.to_nat i)).
Proof. unfold permw. rewrite tb_mkword. reflexivity. Qed.

Lemma permw_xor f a b : permw f (N.lxor a b) = N.lxor (permw f a) (permw f b).
Proof.
  apply bits_inj_iff'. intros i. rewrite N.lxor_spec, !tb_permw. unfold bit. rewrite N.lxor_spec.
  destruct (i <? 64); reflexivity.
Qed.

Lemma permw_0 f : permw f 0 = 0.
Proof. apply bits_inj_iff'. intros i. rewrite tb_permw. unfold bit. rewrite N.bits_0. apply andb_false_r. Qed.

Lemma permw_comp f g v : (forall j, (j < 64)%nat -> (g j < 64)%nat) ->
  permw g (permw f v) = permw (fun j => f (g j)) v.
Proof.
  intros H. apply bits_inj_iff'. intros i. rewrite !tb_permw. destruct (N.ltb_spec i 64) as [Hi|Hi]; auto. cbn [andb].
  unfold bit at 1. rewrite tb_permw, Nat2N.id.
  replace (N.of_nat (g (N.to_nat i)) <? 64) with true by (symmetry; apply N.ltb_lt; specialize (H (N.to_nat i)); lia).
  reflexivity.
Qed.

Lemma permw_ext f g v : (forall j, (j < 64)%nat -> f j = g j) -> permw f v = permw g v.
Proof.
  intros H. apply bits_inj_iff'. intros i. rewrite !tb_permw. destruct (N.ltb_spec i 64) as [Hi|Hi]; auto. cbn [andb].
  now rewrite H by lia.
Qed.

Lemma permw_id v : w64 v -> permw f_id v = v.
Proof.
  intros H. apply bits_inj_iff'. intros i. rewrite tb_permw. unfold f_id, bit. rewrite N2Nat.id.
  destruct (N.ltb_spec i 64) as [Hi|Hi]; auto. now rewrite (tb_high _ 64 i H Hi).
Qed.

(* g undoes f. *)
Definition inv_perm (f g : nat -> nat) : bool :=
  forallb (fun j => (g j <? 64) && (f (g j) =? j))%nat (seq 0 64).
Lemma permw_inv f g v : inv_perm f g = true -> w64 v -> permw g (permw f v) = v.
Proof.
  intros H Hv. unfold inv_perm in H. rewrite forallb_forall in H.
  assert (H' : forall j, (j < 64)%nat -> (g j < 64)%nat /\ f (g j) = j).
  { intros j Hj. specialize (H j). rewrite in_seq, andb_true_iff, Nat.ltb_lt, Nat.eqb_eq in H. apply H. lia. }
  rewrite permw_comp by apply H'. rewrite <- (permw_id v Hv) at 2. apply permw_ext. intros j Hj. apply (H' j Hj).
Qed.

(* Byte order. *)
Lemma permw_swap v : w64 v -> permw f_swap v = be_word (word_le 8 v).
Proof.
  intros Hv. rewrite be_word_rev. apply bits_inj_iff'. intros i.
  rewrite tb_permw, tb_le_word by apply bytes_rev, bytes_word_le.
  destruct (N.ltb_spec i 64) as [Hi|Hi]; cbn [andb].
  - rewrite rev_nth by (rewrite word_le_length; lia). rewrite word_le_length, nth_word_le by lia.
    rewrite tb_byte_at. replace (i mod 8 <? 8) with true by lia. cbn [andb]. unfold bit, f_swap. f_equal. lia.
  - rewrite nth_overflow by (rewrite rev_length, word_le_length; lia). now rewrite N.bits_0.
Qed.

(* ---------- symbolic checks ---------- *)

Definition sperm (f : nat -> nat) (s : sword) : sword := map (fun j => sbit s (f j)) (seq 0 64).

Lemma sperm_spec r s v f : srel r s v -> srel r (sperm f s) (permw f v).
Proof.
  intros H i. rewrite tb_permw. unfold sperm, sbit at 1.
  destruct (N.ltb_spec i 64) as [Hi|Hi]; cbn [andb].
  - rewrite (nth_map_lt _ _ _ 0%nat) by (rewrite seq_length; lia). rewrite seq_nth by lia.
    unfold bit. rewrite (H (N.of_nat _)), Nat2N.id. reflexivity.
  - rewrite nth_overflow by (rewrite map_length, seq_length; lia). reflexivity.
Qed.

(* A round of Ascon with the constant in variable 5. *)
Definition std_round : prog := (Asg 2 (Xor (V 2) (V 5))) :: RefPerm.ascon_ref_sbox ++ RefPerm.ascon_ref_lin.

Lemma run_std_round ws c : words5 ws -> w64 c ->
  firstn 5 (run std_round (ws ++ [c; 0; 0; 0; 0])) = ascon_round c ws.
Proof.
  intros Hs Hi. destruct (words5_inv ws Hs) as (a & b & e & d & g & -> & Ha & Hb & Hc & Hd & He).
  unfold std_round. change (?x :: ?y ++ ?z) with ([x] ++ y ++ z). rewrite !run_app.
  assert (E : run [Asg 2 (Xor (V 2) (V 5))] ([a; b; e; d; g] ++ [c; 0; 0; 0; 0])
              = [a; b; N.lxor e c; d; g] ++ [c; 0; 0; 0; 0]) by reflexivity.
  rewrite E. destruct (run_sbox a b (N.lxor e c) d g [c; 0; 0; 0; 0]) as (ts' & Hts' & E'); auto.
  { now apply lxor_lt. }
  rewrite E'. unfold ascon_round, ascon_addc. cbn [nth].
  destruct (words5_inv _ (ascon_sub_words [a; b; N.lxor e c; d; g]))
    as (a' & b' & c' & d' & e' & -> & Ha' & Hb' & Hc' & Hd' & He').
  rewrite run_lin by auto. reflexivity.
Qed.

Definition lanes_in : list sword := map (sinput 64) (seq 0 5) ++ [sinput 8 5].
Definition check_round (f : nat -> nat) (n : nat) (p : prog) : bool :=
  progok p && progok std_round &&
  (let a := srun p (map (sperm f) lanes_in ++ repeat [] n) in
   let b := srun std_round (lanes_in ++ repeat [] 4) in
   forallb (fun o => seqb (nth o a []) (sperm f (nth o b []))) (seq 0 5)).

Lemma lanes_in_spec ws c : words5 ws -> c < 256 ->
  forall x, srel (vinput (ws ++ [c])) (nth x lanes_in []) (nth x (ws ++ [c]) 0).
Proof.
  intros Hs Hc x. destruct (words5_inv ws Hs) as (a & b & e & d & g & -> & Ha & Hb & He & Hd & Hg).
  unfold lanes_in. cbn [map seq app].
  set (inp := [a; b; e; d; g; c]).
  destruct x as [|x]; [apply (sinput_spec inp 64 0); [lia|exact Ha]|].
  destruct x as [|x]; [apply (sinput_spec inp 64 1); [lia|exact Hb]|].
  destruct x as [|x]; [apply (sinput_spec inp 64 2); [lia|exact He]|].
  destruct x as [|x]; [apply (sinput_spec inp 64 3); [lia|exact Hd]|].
  destruct x as [|x]; [apply (sinput_spec inp 64 4); [lia|exact Hg]|].
  destruct x as [|x]; [apply (sinput_spec inp 8 5); [lia|exact Hc]|].
  destruct x as [|x]; apply szero_spec.
Qed.

Lemma srel_tail r (sr : senv) (rr : env) n : length sr = length rr ->
  (forall x, srel r (nth x sr []) (nth x rr 0)) ->
  forall x, srel r (nth x (sr ++ repeat [] n) []) (nth x (rr ++ repeat 0 n) 0).
Proof.
  intros Hl H x. destruct (Nat.ltb_spec x (length sr)).
  - rewrite !app_nth1 by lia. apply H.
  - rewrite !app_nth2 by lia. rewrite Hl. change (@nil (list poly)) with (@nil sword).
    rewrite !nth_repeat. apply szero_spec.
Qed.

Lemma check_round_sound f n p : check_round f n p = true ->
  forall ws c, words5 ws -> c < 256 ->
  firstn 5 (run p (map (permw f) ws ++ [permw f c] ++ repeat 0 n)) = map (permw f) (ascon_round c ws).
Proof.
  unfold check_round. rewrite !andb_true_iff. intros [[Hp Hq] Ho] ws c Hs Hc.
  pose proof (proj1 Hs) as Hl.
  pose proof (lanes_in_spec ws c Hs Hc) as Hin.
  rewrite <- (run_std_round ws c Hs) by (unfold w64; lia).
  rewrite app_assoc. change ([permw f c]) with (map (permw f) [c]). rewrite <- map_app.
  assert (Hlen : length lanes_in = length (ws ++ [c])) by (rewrite app_length, Hl; reflexivity).
  set (rr := ws ++ [c]) in *.
  assert (Hpin : forall x, srel (vinput rr) (nth x (map (sperm f) lanes_in) []) (nth x (map (permw f) rr) 0)).
  { intros x. destruct (Nat.ltb_spec x (length rr)).
    - assert (E1 : nth x (map (sperm f) lanes_in) [] = sperm f (nth x lanes_in [])) by (apply nth_map_lt; lia).
      assert (E2 : nth x (map (permw f) rr) 0 = permw f (nth x rr 0)) by (apply nth_map_lt; lia).
      intros i. rewrite E1, E2. apply sperm_spec, Hin.
    - rewrite !nth_overflow by (rewrite map_length; lia). apply szero_spec. }
  replace (ws ++ [c; 0; 0; 0; 0]) with (rr ++ repeat 0 4) by (unfold rr; now rewrite <- app_assoc).
  pose proof (srun_sound (vinput rr) p (map (sperm f) lanes_in ++ repeat [] n) (map (permw f) rr ++ repeat 0 n) Hp) as R1.
  pose proof (srun_sound (vinput rr) std_round (lanes_in ++ repeat [] 4) (rr ++ repeat 0 4) Hq) as R2.
  assert (L1 : length (run p (map (permw f) rr ++ repeat 0 n)) = (6 + n)%nat).
  { rewrite run_length, app_length, map_length, repeat_length. unfold rr. rewrite app_length, Hl. reflexivity. }
  assert (L2 : length (run std_round (rr ++ repeat 0 4)) = 10%nat).
  { rewrite run_length, app_length, repeat_length. unfold rr. rewrite app_length, Hl. reflexivity. }
  apply (nth_ext_le _ _ 0).
  - rewrite map_length, !firstn_length. lia.
  - intros i Hi. rewrite firstn_length in Hi. rewrite nth_firstn_lt by lia.
    rewrite (nth_map_lt _ _ _ 0) by (rewrite firstn_length; lia). rewrite nth_firstn_lt by lia.
    rewrite forallb_forall in Ho. specialize (Ho i). cbv zeta in Ho.
    eapply srel_eq; [| |apply Ho; apply in_seq; lia].
    + apply R1; [rewrite !app_length, !map_length, !repeat_length; lia|].
      apply srel_tail; [rewrite !map_length; lia|exact Hpin].
    + apply sperm_spec, R2; [rewrite !app_length, !repeat_length; lia|].
      now apply srel_tail.
Qed.

(* Conversion programs on one lane with four temporaries. *)
Definition check_conv (f : nat -> nat) (p : prog) : bool :=
  progok p && seqb (nth 0 (srun p (sinput 64 0 :: repeat [] 4)) []) (sperm f (sinput 64 0)).

Lemma check_conv_sound f p : check_conv f p = true ->
  forall v, w64 v -> nth 0 (run p [v; 0; 0; 0; 0]) 0 = permw f v.
Proof.
  unfold check_conv. rewrite andb_true_iff. intros [Hp Ho] v Hv.
  assert (H0 : srel (vinput [v]) (sinput 64 0) v) by (apply (sinput_spec [v] 64 0); [lia|exact Hv]).
  eapply srel_eq; [| |exact Ho]; [|now apply sperm_spec].
  apply srun_sound; auto.
  intros x. apply (srel_tail _ [sinput 64 0] [v] 4); auto.
  intros [|y]; [exact H0|]. destruct y as [|y]; apply szero_spec.
Qed.
