(* Proofs of property C64. *)
From Coq Require Import String.
From Verif Require Import Base Mem Vocab RefIsap RefAead SpecFacts Api ApiProps ExtProof Debug DebugProof ByteOrder Config VocabConfig.
From Verif Require Spec.
Open Scope N_scope.
Open Scope string_scope.

(* Both sides are the same text once the choices are made (a comparison by computation would not end when they differ). *)
Ltac syntactic := unfold ref_impl, debug_impl, v_lib, v_macros, mac_a128a, mac_k128a, mac_a128, mac_k128, keccak_lib, ascon_lib;
  cbn [pl_init pl_add pl_over pl_perm pl_extract ISAP_STATE_SZ]; match goal with |- ?x = ?x => exact eq_refl end.

Lemma compiled d v cf X : chosen d v -> compile d cf = Some X -> X = ref_impl v cf \/ X = debug_impl v cf.
Proof.
  intros C H. unfold compile, permutation_c, isap_h, selected, isdef in H.
  destruct v; cbn [chosen] in C;
    destruct (d "ISAP128"), (d "ISAP128A"), (d "KECCAKP400"), (d "ASCON"); try (exfalso; tauto); try (exfalso; intuition congruence);
    destruct (d "DEBUG") as [[z|]|]; try discriminate; destruct (z =? 0)%Z; injection H as <-; (left; syntactic) || (right; syntactic).
Qed.

Lemma compiles d cf : compile d cf = None <->
  (d "ISAP128" = None /\ d "ISAP128A" = None) \/ (d "KECCAKP400" = None /\ d "ASCON" = None) \/ (forall z, d "DEBUG" <> Some (Some z)).
Proof.
  unfold compile, permutation_c, isap_h, isdef.
  destruct (d "ISAP128"), (d "ISAP128A"), (d "KECCAKP400"), (d "ASCON"), (d "DEBUG") as [[z|]|];
    split; intros H; try reflexivity; try discriminate; auto;
    try (right; right; intros; discriminate);
    destruct H as [[? ?]|[[? ?]|H]]; try discriminate; exfalso; now apply (H z).
Qed.

Lemma some_chosen d cf X : compile d cf = Some X -> exists v, chosen d v /\ forall w, chosen d w -> w = v.
Proof.
  intros H. unfold compile, isap_h, isdef in H.
  destruct (d "ISAP128") eqn:E1, (d "ISAP128A") eqn:E2, (d "KECCAKP400") eqn:E3, (d "ASCON") eqn:E4; try discriminate;
    (exists K128; split; [cbn; rewrite ?E1, ?E2, ?E3, ?E4; repeat split; congruence|intros []; cbn; rewrite ?E1, ?E2, ?E3, ?E4; intuition congruence]) ||
    (exists A128; split; [cbn; rewrite ?E1, ?E2, ?E3, ?E4; repeat split; congruence|intros []; cbn; rewrite ?E1, ?E2, ?E3, ?E4; intuition congruence]) ||
    (exists K128A; split; [cbn; rewrite ?E1, ?E2, ?E3, ?E4; repeat split; congruence|intros []; cbn; rewrite ?E1, ?E2, ?E3, ?E4; intuition congruence]) ||
    (exists A128A; split; [cbn; rewrite ?E1, ?E2, ?E3, ?E4; repeat split; congruence|intros []; cbn; rewrite ?E1, ?E2, ?E3, ?E4; intuition congruence]).
Qed.

Lemma compiled_ok d v cf X : chosen d v -> compile d cf = Some X -> impl_ok (v_inst v) cf (ref_consts (v_macros v)) (v_loc v cf) X.
Proof. intros C H. destruct (compiled d v cf X C H) as [-> | ->]; [apply ref_correct|apply debug_correct]. Qed.

Lemma added d cf x y : (x, y) = ("ISAP128", "ISAP128A") \/ (x, y) = ("KECCAKP400", "ASCON") -> d x <> None -> compile (also y d) cf = compile d cf.
Proof.
  intros [E|E] H; injection E as -> ->; unfold compile, permutation_c, isap_h, selected, isdef; cbn [also String.eqb Ascii.eqb Bool.eqb];
    [destruct (d "ISAP128")|destruct (d "KECCAKP400")]; try congruence; reflexivity.
Qed.

Lemma config_enc d v cf X mm c clen m ad npub k K Nn A T : chosen d v -> compile d cf = Some X ->
  ref_locals v cf mm -> ref_enc_valid v cf mm c clen m ad npub k K Nn A T ->
  exists m1, runs (a_enc X c clen m (N.of_nat (length T)) ad (N.of_nat (length A)) npub k) mm 0%Z m1 /\
    has m1 c (Spec.isap_encrypt (v_inst v) K Nn A T) /\ length (Spec.isap_encrypt (v_inst v) K Nn A T) = (length T + 16)%nat.
Proof. exact (fun C H => p_encrypts v cf _ _ X (ioi_of_ok _ _ _ _ _ (compiled_ok d v cf X C H)) mm c clen m ad npub k K Nn A T). Qed.
Lemma config_dec d v cf X mm m mlen c ad npub k K Nn A C t : chosen d v -> compile d cf = Some X ->
  ref_locals v cf mm -> length t = 16%nat -> ref_dec_valid v cf mm m mlen c ad npub k K Nn A (C ++ t)%list ->
  exists r m1, runs (a_dec X m mlen c (N.of_nat (length (C ++ t)%list)) ad (N.of_nat (length A)) npub k) mm r m1 /\
    (r = 0%Z \/ r = (-1)%Z) /\ (r = 0%Z <-> t = Spec.isap_mac (v_inst v) K Nn A C) /\
    (r = 0%Z -> has m1 m (Spec.isap_enc (v_inst v) K Nn C) /\ length (Spec.isap_enc (v_inst v) K Nn C) = length C).
Proof. exact (fun Ch H => p_decrypts v cf _ _ X (ioi_of_ok _ _ _ _ _ (compiled_ok d v cf X Ch H)) mm m mlen c ad npub k K Nn A C t). Qed.
