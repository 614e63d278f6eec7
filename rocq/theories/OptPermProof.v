(* The optimised Ascon permutations and lane conversions agree with Ascon in their representation. Proofs only. *)
From Verif Require Import Base Prog Poly SpecPerm Words AsconProof OptPerm OptRep.
Open Scope N_scope.

(* What isap.c may assume about asconp.h. f: lane representation; rs: round numbers used. *)
Record ap_ok (f : nat -> nat) (a : asconp) (rs : list nat) : Prop := {
  ap_in : forall v, w64 v -> U64TOWORD a v = permw f (be_word (word_le 8 v));
  ap_out : forall v, w64 v -> WORDTOU64 a (permw f v) = be_word (word_le 8 v);
  ap_tobi : forall v, w64 v -> TOBI a v = permw f v;
  ap_rounds : forall r ws, In r rs -> words5 ws ->
    PROUNDS a (N.of_nat r) (map (permw f) ws) = map (permw f) (ascon_p_words r ws);
  ap_top : permw f (2 ^ 63) = 2 ^ 63;
  ap_one : permw f 1 = 1;
  ap_inj : forall v w, w64 v -> w64 w -> permw f v = permw f w -> v = w }.

Lemma rounds_ok f n p : check_round f n p = true -> forall cs ws, words5 ws -> Forall (fun c => c < 256) cs ->
  rounds p n (map (permw f) cs) (map (permw f) ws) = map (permw f) (fold_left (fun s c => ascon_round c s) cs ws).
Proof.
  intros H cs. induction cs as [|c cs IH]; intros ws Hw Hc; auto.
  inversion Hc; subst. unfold rounds in *. cbn [map fold_left].
  rewrite (check_round_sound f n p H ws c) by auto. apply IH; auto. apply ascon_lin_words.
Qed.

(* A schedule is right for the given round numbers. *)
Definition check_sched (f : nat -> nat) (sched : N -> list N) (rs : list nat) : bool :=
  forallb (fun r => if list_eq_dec N.eq_dec (sched (N.of_nat r)) (map (permw f) (skipn (12 - r) ascon_rc)) then true else false) rs.

Lemma rc_small r : Forall (fun c => c < 256) (skipn r ascon_rc).
Proof.
  assert (Forall (fun c => c < 256) ascon_rc) by (repeat constructor).
  rewrite <- (firstn_skipn r ascon_rc) in H. now apply Forall_app in H.
Qed.

Lemma sched_ok f n p sched rs : check_round f n p = true -> check_sched f sched rs = true ->
  forall r ws, In r rs -> words5 ws ->
  rounds p n (sched (N.of_nat r)) (map (permw f) ws) = map (permw f) (ascon_p_words r ws).
Proof.
  intros Hr Hs r ws Hi Hw. unfold check_sched in Hs. rewrite forallb_forall in Hs. specialize (Hs r Hi).
  destruct (list_eq_dec _ _ _) as [E|]; [|discriminate]. rewrite E. apply rounds_ok; auto. apply rc_small.
Qed.

Lemma w64_swap v : w64 (be_word (word_le 8 v)).
Proof. pose proof (be_word_lt (word_le 8 v) (bytes_word_le 8 v)) as H. now rewrite word_le_length in H. Qed.

Lemma conv_big v : w64 v -> conv big_prog v = be_word (word_le 8 v).
Proof. intros H. unfold conv. rewrite (check_conv_sound f_swap big_prog ltac:(vm_compute; reflexivity) v H). now apply permw_swap. Qed.

Lemma swap_swap v : w64 v -> be_word (word_le 8 (be_word (word_le 8 v))) = v.
Proof.
  intros H. rewrite <- (permw_swap (be_word (word_le 8 v)) (w64_swap v)), <- (permw_swap v H).
  now apply permw_inv.
Qed.

Lemma permw_inj f g v w : inv_perm f g = true -> w64 v -> w64 w -> permw f v = permw f w -> v = w.
Proof. intros H Hv Hw E. rewrite <- (permw_inv f g v), <- (permw_inv f g w) by auto. now rewrite E. Qed.

Lemma plain_ok p n sched rs : check_round f_id n p = true -> check_sched f_id sched rs = true ->
  ap_ok f_id (plain_asconp p n sched) rs.
Proof.
  intros H1 H2. constructor; cbn [plain_asconp U64TOWORD WORDTOU64 TOBI PROUNDS].
  - intros v Hv. rewrite conv_big by auto. now rewrite permw_id by apply w64_swap.
  - intros v Hv. rewrite permw_id by auto. now apply conv_big.
  - intros v Hv. now rewrite permw_id.
  - now apply sched_ok.
  - vm_compute. reflexivity.
  - vm_compute. reflexivity.
  - intros v w Hv Hw. now rewrite !permw_id.
Qed.

Lemma conv_to_bi v : w64 v -> conv to_bi v = permw f_bi32 v.
Proof. exact (check_conv_sound f_bi32 to_bi ltac:(vm_compute; reflexivity) v). Qed.
Lemma conv_from_bi v : w64 v -> conv from_bi v = permw f_bi32_inv v.
Proof. exact (check_conv_sound f_bi32_inv from_bi ltac:(vm_compute; reflexivity) v). Qed.
Lemma conv_i8 v : w64 v -> conv interleave8 v = permw f_bi8 v.
Proof. exact (check_conv_sound f_bi8 interleave8 ltac:(vm_compute; reflexivity) v). Qed.

Lemma inv_bi32 : inv_perm f_bi32 f_bi32_inv = true. Proof. vm_compute. reflexivity. Qed.
Lemma inv_bi32' : inv_perm f_bi32_inv f_bi32 = true. Proof. vm_compute. reflexivity. Qed.
Lemma inv_bi8 : inv_perm f_bi8 f_bi8 = true. Proof. vm_compute. reflexivity. Qed.

Lemma bi_ok p n sched rs : check_round f_bi32 n p = true -> check_sched f_bi32 sched rs = true ->
  ap_ok f_bi32 (bi_asconp p n sched) rs.
Proof.
  intros H1 H2. constructor; cbn [bi_asconp U64TOWORD WORDTOU64 TOBI PROUNDS].
  - intros v Hv. rewrite conv_big by auto. apply conv_to_bi, w64_swap.
  - intros v Hv. rewrite conv_from_bi by apply permw_w64. rewrite (permw_inv _ _ v inv_bi32 Hv). now apply conv_big.
  - intros v Hv. now apply conv_to_bi.
  - now apply sched_ok.
  - vm_compute. reflexivity.
  - vm_compute. reflexivity.
  - intros v w. apply (permw_inj _ _ v w inv_bi32).
Qed.

Lemma bi8_ok p n sched rs : check_round f_bi8 n p = true -> check_sched f_bi8 sched rs = true ->
  ap_ok f_bi8 (bi8_asconp p n sched) rs.
Proof.
  intros H1 H2. constructor; cbn [bi8_asconp U64TOWORD WORDTOU64 TOBI PROUNDS].
  - intros v Hv. rewrite conv_big by auto. apply conv_i8, w64_swap.
  - intros v Hv. rewrite conv_i8 by apply permw_w64. rewrite (permw_inv _ _ v inv_bi8 Hv). now apply conv_big.
  - intros v Hv. now apply conv_i8.
  - now apply sched_ok.
  - vm_compute. reflexivity.
  - vm_compute. reflexivity.
  - intros v w. apply (permw_inj _ _ v w inv_bi8).
Qed.

(* The round functions. *)
Lemma ck_opt_64 : check_round f_id 8 ROUND_opt_64 = true. Proof. vm_compute. reflexivity. Qed.
Lemma ck_opt_32 : check_round f_id 8 ROUND_opt_32 = true. Proof. vm_compute. reflexivity. Qed.
Lemma ck_opt_8 : check_round f_id 8 ROUND_opt_8 = true. Proof. vm_compute. reflexivity. Qed.
Lemma ck_bi_32 : check_round f_bi32 8 ROUND_bi_32 = true. Proof. vm_compute. reflexivity. Qed.
Lemma ck_armv6 : check_round f_bi32 15 ROUND_armv6 = true. Proof. vm_compute. reflexivity. Qed.
Lemma ck_armv6m : check_round f_bi32 15 ROUND_armv6m = true. Proof. vm_compute. reflexivity. Qed.
Lemma ck_bi_8 : check_round f_bi8 8 ROUND_bi_8 = true. Proof. vm_compute. reflexivity. Qed.

(* The directories. *)
Definition rounds_used : list nat := [12; 1; 6]%nat.
Definition rounds_stp : list nat := [12; 1; 6; 7]%nat.
Lemma opt_64_ok : ap_ok f_id opt_64 rounds_used. Proof. apply plain_ok; [exact ck_opt_64|vm_compute; reflexivity]. Qed.
Lemma opt_32_ok : ap_ok f_id opt_32 rounds_used. Proof. apply plain_ok; [exact ck_opt_32|vm_compute; reflexivity]. Qed.
Lemma opt_32_compact_ok : ap_ok f_id opt_32_compact rounds_used. Proof. apply plain_ok; [exact ck_opt_32|vm_compute; reflexivity]. Qed.
Lemma opt_32_tiny_ok : ap_ok f_id opt_32_tiny rounds_used. Proof. apply plain_ok; [exact ck_opt_32|vm_compute; reflexivity]. Qed.
Lemma opt_32_stp_ok : ap_ok f_id opt_32_stp rounds_stp. Proof. apply plain_ok; [exact ck_opt_32|vm_compute; reflexivity]. Qed.
Lemma opt_8_ok : ap_ok f_id opt_8 rounds_used. Proof. apply plain_ok; [exact ck_opt_8|vm_compute; reflexivity]. Qed.
Lemma opt_8_tiny_ok : ap_ok f_id opt_8_tiny rounds_used. Proof. apply plain_ok; [exact ck_opt_8|vm_compute; reflexivity]. Qed.
Lemma bi_32_ok : ap_ok f_bi32 bi_32 rounds_used. Proof. apply bi_ok; [exact ck_bi_32|vm_compute; reflexivity]. Qed.
Lemma bi_32_compact_ok : ap_ok f_bi32 bi_32_compact rounds_used. Proof. apply bi_ok; [exact ck_bi_32|vm_compute; reflexivity]. Qed.
Lemma bi_32_stp_ok : ap_ok f_bi32 bi_32_stp rounds_stp. Proof. apply bi_ok; [exact ck_bi_32|vm_compute; reflexivity]. Qed.
Lemma bi_32_armv6_ok : ap_ok f_bi32 bi_32_armv6 rounds_used. Proof. apply bi_ok; [exact ck_armv6|vm_compute; reflexivity]. Qed.
Lemma bi_32_armv6m_ok : ap_ok f_bi32 bi_32_armv6m rounds_used. Proof. apply bi_ok; [exact ck_armv6m|vm_compute; reflexivity]. Qed.
Lemma bi_32_armv6m_compact_ok : ap_ok f_bi32 bi_32_armv6m_compact rounds_used.
Proof. apply bi_ok; [exact ck_armv6m|vm_compute; reflexivity]. Qed.
Lemma bi_32_armv6m_stp_ok : ap_ok f_bi32 bi_32_armv6m_stp rounds_stp. Proof. apply bi_ok; [exact ck_armv6m|vm_compute; reflexivity]. Qed.
Lemma bi_8_ok : ap_ok f_bi8 bi_8 rounds_used. Proof. apply bi8_ok; [exact ck_bi_8|vm_compute; reflexivity]. Qed.
