(* The Ascon permutations of the optimised ISAP-A-128 implementations. Proofs only. *)
From Verif Require Import Base Prog Poly SpecPerm Words AsconProof OptPerm OptRep OptPermProof A128Perm.
Open Scope N_scope.

Definition rounds12 : list nat := [12]%nat.

Lemma conv_big_rotr v : w64 v -> conv big_rotr_prog v = be_word (word_le 8 v).
Proof. intros H. unfold conv. rewrite (check_conv_sound f_swap big_rotr_prog ltac:(vm_compute; reflexivity) v H). now apply permw_swap. Qed.

Lemma ck_a128_64 : check_round f_id 8 ROUND_a128_64 = true. Proof. vm_compute. reflexivity. Qed.
Lemma ck_a128_32 : check_round f_bi32 22 ROUND_a128_32 = true. Proof. vm_compute. reflexivity. Qed.
Lemma ck_armv67m : check_round f_bi32 16 ROUND_armv67m = true. Proof. vm_compute. reflexivity. Qed.

Lemma a128_64_ok : ap_ok f_id a128_64 rounds12.
Proof.
  constructor; cbn [a128_64 U64TOWORD WORDTOU64 TOBI PROUNDS].
  - intros v Hv. rewrite conv_big_rotr by auto. now rewrite permw_id by apply w64_swap.
  - intros v Hv. rewrite permw_id by auto. now apply conv_big_rotr.
  - intros v Hv. now rewrite permw_id.
  - apply sched_ok; [exact ck_a128_64|vm_compute; reflexivity].
  - vm_compute. reflexivity.
  - vm_compute. reflexivity.
  - intros v w Hv Hw. now rewrite !permw_id.
Qed.
Lemma a128_32_ok : ap_ok f_bi32 a128_32 rounds12. Proof. apply bi_ok; [exact ck_a128_32|vm_compute; reflexivity]. Qed.
Lemma a128_67_loop_ok : ap_ok f_bi32 a128_67_loop rounds12. Proof. apply bi_ok; [exact ck_armv67m|vm_compute; reflexivity]. Qed.
Lemma a128_67_urol_ok : ap_ok f_bi32 a128_67_urol rounds12. Proof. apply bi_ok; [exact ck_armv67m|vm_compute; reflexivity]. Qed.
