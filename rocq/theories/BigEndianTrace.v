(* Traces of the Keccak reference on a big-endian machine taken for little-endian (C65). Proofs only. *)
From Verif Require Import Base Prog SpecPerm Words RefPerm Mem Vocab Vocab2 VocabK MemProof RefLib Spec RefProof RefAead SpecFacts.
From Verif Require Import RefIsap Trace RefTrace RefTrace2 BigEndian VocabBig BigEndianProof.
Open Scope list_scope.
Open Scope N_scope.
Open Scope cm_scope.

Lemma rel_be_load cf n : forall p, rel (fun a b => length a = n /\ length b = n) (be_load_lanes cf n p) (be_load_lanes cf n p).
Proof.
  induction n as [|n IH]; intros p; cbn [be_load_lanes].
  - apply rel_ret. auto.
  - eapply rel_bind; [apply rel_loadn|]. intros a b _. eapply rel_bind; [apply IH|]. intros x y [E1 E2].
    apply rel_ret. cbn [length]. lia.
Qed.
Lemma rel_be_store cf : forall ws ws' p, length ws = length ws' -> rel eq (be_store_lanes cf ws p) (be_store_lanes cf ws' p).
Proof.
  induction ws as [|w ws IH]; intros [|w' ws'] p E; try discriminate; cbn [be_store_lanes].
  - now apply rel_ret.
  - eapply rel_bind; [apply rel_storen; reflexivity|]. intros _ _ _. apply IH. now injection E.
Qed.
Lemma be_ct_lib cf : lib_ct (be_lib cf).
Proof.
  constructor; cbn; intros.
  - apply rel_memset.
  - apply rel_AddBytes.
  - eapply rel_bind; [apply rel_asserts|]. intros _ _ _. apply rel_memcpy.
  - eapply rel_bind; [apply rel_emit|]. intros _ _ _. eapply rel_bind; [apply rel_be_load|]. intros a b [H1 H2].
    apply rel_be_store. now rewrite !keccak_words_length.
  - apply rel_Extract.
Qed.
Lemma be_calls cf : lib_calls (be_lib cf).
Proof.
  constructor; cbn; intros.
  - apply silent_memset.
  - apply silent_AddBytes.
  - apply silent_bind; [apply silent_asserts|]. intros _. apply silent_memcpy.
  - apply calls_then_silent; [apply calls_emit|]. intros _.
    apply silent_bind.
    + generalize 25%nat as n. intros n. revert s. induction n as [|n IH]; intros s; cbn [be_load_lanes]; [apply silent_ret|].
      apply silent_bind; [apply silent_loadn|]. intros. apply silent_bind; [apply IH|]. intros. apply silent_ret.
    + intros ws. generalize (keccak_ref_words r ws). intros l. revert s. induction l as [|w l IH]; intros s; cbn [be_store_lanes].
      * apply silent_ret.
      * apply silent_bind; [apply silent_storen|]. auto.
  - apply silent_Extract.
Qed.
Lemma be_grows cf : lib_grows (be_lib cf).
Proof.
  constructor; cbn [pl_init pl_add pl_over pl_perm pl_extract be_lib]; intros;
    unfold lib_Initialize, lib_AddBytes, KeccakP400_OverwriteBytes, be_Permute_Nrounds, lib_ExtractBytes, lib_asserts; gr.
  - generalize 25%nat as n. intros n. revert s. induction n as [|n IH]; intros s; cbn [be_load_lanes]; gr. apply IH.
  - match goal with |- grows (be_store_lanes _ (keccak_ref_words _ ?x) _) => generalize (keccak_ref_words r x) end. intros l.
    revert s. induction l as [|w l IH]; intros s; cbn [be_store_lanes]; gr. apply IH.
Qed.

Section V.
  Variable v : variant.
  Hypothesis Hv : v = K128A \/ v = K128.
  Variable cf : cfg.

  Lemma be_calls_mac a n : calls_mac (swapped v) a n = calls_mac (v_inst v) a n.
  Proof. destruct Hv; subst v; reflexivity. Qed.
  Lemma be_calls_enc n : calls_enc (swapped v) n = calls_enc (v_inst v) n.
  Proof. destruct Hv; subst v; reflexivity. Qed.

  Lemma be_enc_trace mm mm' c clen m ad npub k K Nn A T K' Nn' A' T' :
    ref_locals v cf mm ->
    ref_enc_valid v cf mm c clen m ad npub k K Nn A T -> ref_enc_valid v cf mm' c clen m ad npub k K' Nn' A' T' ->
    length A = length A' -> length T = length T' -> layout mm mm' ->
    forall t, exists s s',
      a_enc (be_impl v cf) c clen m (N.of_nat (length T)) ad (N.of_nat (length A)) npub k (St mm t) = Ok 0%Z s /\
      a_enc (be_impl v cf) c clen m (N.of_nat (length T)) ad (N.of_nat (length A)) npub k (St mm' t) = Ok 0%Z s' /\
      strc s = strc s' /\
      perms (strc s) = perms t ++ calls_enc (v_inst v) (length T) ++ calls_mac (v_inst v) (length A) (length T).
  Proof.
    intros L V V' EA ET Hl t.
    destruct (ref_enc_trace _ _ _ _ _ cf (be_libok v Hv cf) (be_macok v Hv) (be_ct_lib cf) mm mm' c clen m ad npub k K Nn A T K' Nn' A' T' L V V' EA ET Hl t)
      as (s & s' & E1 & E2 & E).
    destruct (ref_enc_calls _ _ _ _ _ cf (be_libok v Hv cf) (be_macok v Hv) (be_calls cf) mm c clen m ad npub k K Nn A T L V t) as (s1 & F1 & F2).
    unfold be_impl. rewrite E1 in F1. injection F1 as <-. rewrite be_calls_enc, be_calls_mac in F2. exists s, s'. auto.
  Qed.
  Lemma be_dec_trace mm mm' m mlen c ad npub k K Nn A Y K' Nn' A' Y' :
    ref_locals v cf mm ->
    ref_dec_valid v cf mm m mlen c ad npub k K Nn A Y -> ref_dec_valid v cf mm' m mlen c ad npub k K' Nn' A' Y' ->
    length A = length A' -> length Y = length Y' -> layout mm mm' ->
    forall t, exists r s r' s' t0 u u',
      a_dec (be_impl v cf) m mlen c (N.of_nat (length Y)) ad (N.of_nat (length A)) npub k (St mm t) = Ok r s /\
      a_dec (be_impl v cf) m mlen c (N.of_nat (length Y)) ad (N.of_nat (length A)) npub k (St mm' t) = Ok r' s' /\
      strc s = u ++ EBr (r =? 0)%Z :: t0 /\ strc s' = u' ++ EBr (r' =? 0)%Z :: t0 /\
      (r <> 0%Z -> u = []) /\ (r' <> 0%Z -> u' = []) /\ (r = r' -> u = u') /\
      perms (strc s) = perms t ++ calls_mac (v_inst v) (length A) (length Y - 16) ++ (if (r =? 0)%Z then calls_enc (v_inst v) (length Y - 16) else []).
  Proof.
    intros L V V' EA EY Hl t.
    destruct (ref_dec_trace _ _ _ _ _ cf (be_libok v Hv cf) (be_macok v Hv) (be_ct_lib cf) (be_grows cf) mm mm' m mlen c ad npub k K Nn A Y K' Nn' A' Y' L V V' EA EY Hl t)
      as (r & s & r' & s' & t0 & u & u' & E1 & E2 & E3 & E4 & U1 & U2 & U3).
    destruct (ref_dec_calls _ _ _ _ _ cf (be_libok v Hv cf) (be_macok v Hv) (be_calls cf) mm m mlen c ad npub k K Nn A Y L V t) as (r1 & s1 & F1 & F2).
    unfold be_impl. rewrite E1 in F1. injection F1 as <- <-. rewrite be_calls_enc, be_calls_mac in F2.
    exists r, s, r', s', t0, u, u'. repeat (split; [assumption|]). exact F2.
  Qed.
End V.
