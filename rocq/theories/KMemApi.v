(* The API of the Keccak builds over the permutation of KMem.v. Proofs only. *)
From Verif Require Import Base Prog SpecPerm Words RefPerm KeccakProof Mem Vocab MemProof RefLib Trace RefProof RefAead SpecFacts RefTrace RefTrace2 KMem KMemProof.
From Verif Require Spec RefIsap.
Import Spec(inst, i_sz, i_rate, i_sH, i_sB, i_sE, i_sK, i_perm).
Import RefIsap.
Open Scope N_scope.
Open Scope cm_scope.

Definition okb_mem (cf : cfg) (b : nat) : Prop := forall b', (b <= b')%nat -> even_ok cf b'.

Lemma mem_lib_ok cf : lib_ok (mem_lib cf) 50 keccak_p 20 (okb_mem cf).
Proof.
  destruct (keccak_lib_ok cf) as [H1 H2 H3 H4 _ H6 H7]. constructor; try assumption.
  intros m b s r Ho Hr Hb Hs Hl. eapply runs_bind; [apply runs_emit|]. apply runs_KMem; try assumption.
  intros b' Hb'. apply Ho. enough (b < length m)%nat by lia.
  destruct (Nat.ltb_spec b (length m)); auto. unfold blk in Hb. rewrite nth_overflow in Hb by auto. destruct s; discriminate.
Qed.

(* ---- traces ---- *)

Lemma rel_get cf A i : rel any (get cf A i) (get cf A i).
Proof. eapply rel_bind; [apply rel_loadn|]. intros. now apply rel_ret. Qed.
Lemma rel_set cf A i v w : rel eq (set cf A i v) (set cf A i w).
Proof. apply rel_storen. now rewrite !word_le_length. Qed.
Lemma rel_table t i : rel eq (table t i) (table t i).
Proof. unfold table. destruct (nth_error t (N.to_nat i)); [now apply rel_ret|apply rel_fail]. Qed.
Lemma rel_guard (c d : bool) (v w : N) : rel any (if c then ret v else fail_ub) (if d then ret w else fail_ub).
Proof. destruct c; [|apply rel_fail]. destruct d; [now apply rel_ret|]. intros ? ? ? ? ? ? ? ? _ E. discriminate. Qed.
Lemma rel_ROL cf A i o : rel any (ROL16 (get cf A i) o) (ROL16 (get cf A i) o).
Proof.
  apply rel_if; [|apply rel_get]. eapply rel_bind; [apply rel_get|]. intros. eapply rel_bind; [apply rel_get|]. intros. apply rel_guard.
Qed.
Ltac rl := repeat first
  [ apply rel_set
  | apply (rel_for eq); [intros ? ? ? _|reflexivity]
  | apply rel_with_block; intros ?
  | eapply rel_bind; [apply rel_get|intros ? ? _]
  | eapply rel_bind; [apply rel_ROL|intros ? ? _]
  | eapply rel_bind; [apply rel_table|intros ? ? <-]
  | eapply (rel_bind eq); [|intros ? ? _] ].
Lemma rel_round cf s i : rel eq (KeccakP400Round cf s i) (KeccakP400Round cf s i).
Proof. unfold KeccakP400Round, theta, rho, pi, chi, iota, with_lanes. rl. Qed.
Lemma rel_KMem cf s r : rel eq (Permute_Nrounds cf s r) (Permute_Nrounds cf s r).
Proof. apply (rel_for eq); [|reflexivity]. intros. apply rel_round. Qed.

Lemma mem_ct cf : lib_ct (mem_lib cf).
Proof.
  destruct (keccak_ct cf) as [H1 H2 H3 _ H5]. constructor; try assumption.
  intros. eapply rel_bind; [apply rel_emit|]. intros _ _ _. apply rel_KMem.
Qed.

Lemma silent_get cf A i : silent (get cf A i).
Proof. apply silent_bind; [apply silent_loadn|]. intros. apply silent_ret. Qed.
Lemma silent_table t i : silent (table t i).
Proof. unfold table. destruct (nth_error t (N.to_nat i)); [apply silent_ret|]. apply silent_fail. Qed.
Lemma silent_ROL cf A i o : silent (ROL16 (get cf A i) o).
Proof.
  apply calls_if; intros _; [|apply silent_get]. apply silent_bind; [apply silent_get|]. intros. apply silent_bind; [apply silent_get|]. intros.
  destruct (_ <? _); [apply silent_ret|apply silent_fail].
Qed.
Ltac sl := repeat first
  [ apply silent_storen
  | apply silent_for; intros ? ?
  | apply calls_with_block; intros ?
  | apply silent_bind; [first [apply silent_get|apply silent_ROL|apply silent_table]|intros ?]
  | apply silent_bind; [|intros ?] ].
Lemma silent_round cf s i : silent (KeccakP400Round cf s i).
Proof. unfold KeccakP400Round, theta, rho, pi, chi, iota, with_lanes, set. sl. Qed.
Lemma mem_calls cf : lib_calls (mem_lib cf).
Proof.
  destruct (keccak_calls cf) as [H1 H2 H3 _ H5]. constructor; try assumption.
  intros. apply calls_then_silent; [apply calls_emit|]. intros _. apply silent_for. intros. apply silent_round.
Qed.

Lemma gr_get cf A i : grows (get cf A i).
Proof. unfold get. gr. Qed.
Lemma gr_table t i : grows (table t i).
Proof. unfold table. destruct (nth_error t (N.to_nat i)); [gr|]. apply gr_fail. Qed.
Lemma gr_ROL cf A i o : grows (ROL16 (get cf A i) o).
Proof. unfold ROL16. apply gr_if; [|apply gr_get]. do 2 (apply gr_bind; [apply gr_get|intros ?]). destruct (_ <? _); [gr|apply gr_fail]. Qed.
Lemma mem_grows cf : lib_grows (mem_lib cf).
Proof.
  destruct (keccak_grows cf) as [H1 H2 H3 _ H5]. constructor; try assumption.
  intros. cbn [pl_perm mem_lib]. unfold Permute_Nrounds, KeccakP400OnWords, KeccakP400Round, theta, rho, pi, chi, iota, with_lanes, set.
  repeat first [apply gr_get|apply gr_ROL|apply gr_table|gr1].
Qed.

(* ---- the two builds ---- *)
Definition keccak_build (v : variant) : Prop := v = K128A \/ v = K128.
Lemma k_libok v cf : keccak_build v -> lib_ok (mem_lib cf) (i_sz (v_inst v)) (i_perm (v_inst v)) (v_maxr v) (okb_mem cf).
Proof. intros [-> | ->]; exact (mem_lib_ok cf). Qed.
Lemma k_locals v cf mm : keccak_build v -> ref_locals v cf mm -> forall b, (length mm <= b)%nat -> okb_mem cf b.
Proof. intros [-> | ->] H b Hb b' Hb'; apply (H b'); lia. Qed.

Lemma mem_correct v cf : keccak_build v -> impl_ok (v_inst v) cf (ref_consts (v_macros v)) (v_loc v cf) (mem_impl (v_macros v) cf).
Proof.
  intros Hv. destruct (ref_impl_ok _ _ _ _ _ cf (k_libok v cf Hv) (v_macok v)) as [He Hd]. constructor.
  - intros. apply He; [|assumption]. eapply k_locals; eassumption.
  - intros. apply Hd; [|assumption]. eapply k_locals; eassumption.
Qed.

Lemma mem_perm_trace cf m m' b s s' r : (forall b', b' = b \/ (length m <= b')%nat -> even_ok cf b') -> (r <= 20)%nat -> layout m m' ->
  blk m b = map Some s -> bytes s -> length s = 50%nat -> blk m' b = map Some s' -> bytes s' -> length s' = 50%nat ->
  forall t, exists s1 s2, Permute_Nrounds cf (P b 0) (N.of_nat r) (St m t) = Ok tt s1 /\
    Permute_Nrounds cf (P b 0) (N.of_nat r) (St m' t) = Ok tt s2 /\ strc s1 = strc s2.
Proof.
  intros He Hr Hl B1 H1 L1 B2 H2 L2 t.
  assert (He' : forall b', b' = b \/ (length m' <= b')%nat -> even_ok cf b') by (rewrite <- (layout_length _ _ Hl); exact He).
  destruct (runs_KMem cf m b s r He Hr B1 H1 L1 t) as (t1 & E1). destruct (runs_KMem cf m' b s' r He' Hr B2 H2 L2 t) as (t2 & E2).
  eexists _, _. split; [exact E1|]. split; [exact E2|]. exact (proj1 (rel_KMem cf (P b 0) (N.of_nat r) _ _ _ _ _ _ _ Hl E1 E2)).
Qed.

Section Builds.
  Variables (v : variant) (cf : cfg).
  Hypothesis Hv : keccak_build v.
  Notation X := (mem_impl (v_macros v) cf).

  Lemma mem_enc_trace mm mm' c clen m ad npub k K Nn A T K' Nn' A' T' :
    ref_locals v cf mm -> ref_enc_valid v cf mm c clen m ad npub k K Nn A T -> ref_enc_valid v cf mm' c clen m ad npub k K' Nn' A' T' ->
    length A = length A' -> length T = length T' -> layout mm mm' ->
    forall t, exists s s',
      a_enc X c clen m (N.of_nat (length T)) ad (N.of_nat (length A)) npub k (St mm t) = Ok 0%Z s /\
      a_enc X c clen m (N.of_nat (length T)) ad (N.of_nat (length A)) npub k (St mm' t) = Ok 0%Z s' /\
      strc s = strc s'.
  Proof. intros H. apply (ref_enc_trace _ _ _ _ _ cf (k_libok v cf Hv) (v_macok v) (mem_ct cf)). now apply (k_locals v). Qed.

  Lemma mem_dec_trace mm mm' m mlen c ad npub k K Nn A Y K' Nn' A' Y' :
    ref_locals v cf mm -> ref_dec_valid v cf mm m mlen c ad npub k K Nn A Y -> ref_dec_valid v cf mm' m mlen c ad npub k K' Nn' A' Y' ->
    length A = length A' -> length Y = length Y' -> layout mm mm' ->
    forall t, exists r s r' s' t0 u u',
      a_dec X m mlen c (N.of_nat (length Y)) ad (N.of_nat (length A)) npub k (St mm t) = Ok r s /\
      a_dec X m mlen c (N.of_nat (length Y)) ad (N.of_nat (length A)) npub k (St mm' t) = Ok r' s' /\
      strc s = u ++ EBr (r =? 0)%Z :: t0 /\ strc s' = u' ++ EBr (r' =? 0)%Z :: t0 /\
      (r <> 0%Z -> u = []) /\ (r' <> 0%Z -> u' = []) /\ (r = r' -> u = u').
  Proof. intros H. apply (ref_dec_trace _ _ _ _ _ cf (k_libok v cf Hv) (v_macok v) (mem_ct cf) (mem_grows cf)). now apply (k_locals v). Qed.

  Lemma mem_enc_calls mm c clen m ad npub k K Nn A T :
    ref_locals v cf mm -> ref_enc_valid v cf mm c clen m ad npub k K Nn A T ->
    forall t, exists s,
      a_enc X c clen m (N.of_nat (length T)) ad (N.of_nat (length A)) npub k (St mm t) = Ok 0%Z s /\
      perms (strc s) = perms t ++ calls_enc (v_inst v) (length T) ++ calls_mac (v_inst v) (length A) (length T).
  Proof. intros H. apply (ref_enc_calls _ _ _ _ _ cf (k_libok v cf Hv) (v_macok v) (mem_calls cf)). now apply (k_locals v). Qed.

  Lemma mem_dec_calls mm m mlen c ad npub k K Nn A Y :
    ref_locals v cf mm -> ref_dec_valid v cf mm m mlen c ad npub k K Nn A Y ->
    forall t, exists r s,
      a_dec X m mlen c (N.of_nat (length Y)) ad (N.of_nat (length A)) npub k (St mm t) = Ok r s /\
      perms (strc s) = perms t ++ calls_mac (v_inst v) (length A) (length Y - 16) ++
        (if (r =? 0)%Z then calls_enc (v_inst v) (length Y - 16) else []).
  Proof. intros H. apply (ref_dec_calls _ _ _ _ _ cf (k_libok v cf Hv) (v_macok v) (mem_calls cf)). now apply (k_locals v). Qed.
End Builds.
