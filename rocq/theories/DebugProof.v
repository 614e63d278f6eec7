(* The build with -DDEBUG=1. Proofs only. *)
From Coq Require Import Ascii String.
From Verif Require Import Base Prog SpecPerm Words RefPerm Mem Vocab MemProof RefLib RefIsap RefProof RefAead SpecFacts Api ApiProps Genkat VocabKat GenkatProof Debug.
From Verif Require Spec.
Import Spec(inst, i_sz, i_rate, i_perm).
Open Scope N_scope.
Open Scope cm_scope.

Notation S_ s := (map (@Some N) s).

Lemma runs_print n m b s : blk m b = S_ s -> length s = N.to_nat n ->
  runs (print_state n (P b 0)) m ("     " ++ hex s ++ eol)%string m.
Proof.
  intros Hb Hn. replace n with (N.of_nat (length s)) by lia.
  exact (runs_bstr m (P b 0) s ""%string "     "%string (has_blk0 m b s Hb)).
Qed.

Section Lib.
  Variables (L : plib) (sz : nat) (perm : nat -> list N -> list N) (maxr : nat) (okb : nat -> Prop).
  Hypothesis HL : lib_ok L sz perm maxr okb.
  Notation n := (N.of_nat sz).
  Notation L' := (debug_lib L n).

  Lemma blk_some m b s : blk m b = S_ s -> length s = sz -> (b < length m)%nat.
  Proof.
    intros H Hs. destruct (Nat.lt_ge_cases b (length m)); auto. unfold blk in H. rewrite nth_overflow in H by auto.
    pose proof (lo_sz _ _ _ _ _ HL). destruct s; cbn in *; [lia|discriminate].
  Qed.
  Lemma blk_len m b : length (blk m b) = sz -> (b < length m)%nat.
  Proof.
    intros H. destruct (Nat.lt_ge_cases b (length m)); auto. unfold blk in H. rewrite nth_overflow in H by auto.
    pose proof (lo_sz _ _ _ _ _ HL). cbn in *; lia.
  Qed.
  Lemma after f m b s : runs f m tt (upd_nth m b (S_ s)) -> (b < length m)%nat -> length s = sz -> forall h,
    runs (f ;; x <- print_state n (P b 0) ;; ret (h ++ x)%string) m (h ++ "     " ++ hex s ++ eol)%string (upd_nth m b (S_ s)).
  Proof.
    intros R Hb Hs h. eapply runs_bind; [exact R|]. eapply runs_bind; [|apply runs_ret].
    apply runs_print; [|lia]. rewrite blk_upd, Nat.eqb_refl. now destruct (Nat.ltb_spec b (length m)); [|lia].
  Qed.
  Lemma drop {A} (f : M A) m a m' : runs f m a m' -> runs (_ <- f ;; ret tt) m tt m'.
  Proof. intros R. eapply runs_bind; [exact R|apply runs_ret]. Qed.

  Lemma d_init m b : length (blk m b) = sz ->
    runs (debug_Initialize L n (P b 0)) m ("   # Initializing state #" ++ eol ++ "     " ++ hex (repeat 0 sz) ++ eol)%string
         (upd_nth m b (S_ (repeat 0 sz))).
  Proof.
    intros H. eapply runs_eq; [apply (after _ m b (repeat 0 sz)); [now apply (lo_init _ _ _ _ _ HL)|now apply blk_len|apply repeat_length]| |]; auto.
  Qed.
  Lemma d_add m b s d bs off : blk m b = S_ s -> length s = sz -> pb d <> b -> has m d bs ->
    (off < sz)%nat -> (off + length bs <= sz)%nat ->
    runs (debug_AddBytes L n (P b 0) d (N.of_nat off) (N.of_nat (length bs))) m
         ("   # Adding " ++ dec (length bs) ++ " bytes starting at state[" ++ dec off ++ "] #" ++ eol ++ "     " ++ hex (addat s off bs) ++ eol)%string
         (upd_nth m b (S_ (addat s off bs))).
  Proof.
    intros H Hs Hd Hh H1 H2. eapply runs_eq.
    - apply (after _ m b (addat s off bs)); [now apply (lo_add _ _ _ _ _ HL)|eapply blk_some; eauto|now rewrite addat_length].
    - rewrite !sapp_assoc. reflexivity.
    - reflexivity.
  Qed.
  Lemma d_over m b d bs off s : length (blk m b) = sz -> pb d <> b -> has m d bs ->
    (off < sz)%nat -> (off + length bs <= sz)%nat -> splice (blk m b) off (S_ bs) = S_ s ->
    runs (debug_OverwriteBytes L n (P b 0) d (N.of_nat off) (N.of_nat (length bs))) m
         ("   # Overwriting " ++ dec (length bs) ++ " bytes starting at state[" ++ dec off ++ "] #" ++ eol ++ "     " ++ hex s ++ eol)%string
         (upd_nth m b (S_ s)).
  Proof.
    intros H Hd Hh H1 H2 H3. pose proof (blk_len m b H) as Hb.
    assert (Ls : length s = sz).
    { rewrite <- (map_length (@Some N) s), <- H3. rewrite splice_length; [exact H|]. rewrite map_length. rewrite <- H in H2. exact H2. }
    eapply runs_eq.
    - apply (after _ m b s); auto. eapply runs_eq; [now apply (lo_over _ _ _ _ _ HL m b d bs off s)|reflexivity|].
      unfold putp, put. cbn [pb po]. now rewrite Nat2N.id, H3.
    - rewrite !sapp_assoc. reflexivity.
    - reflexivity.
  Qed.
  Lemma d_perm m b s r : okb b -> (r <= maxr)%nat -> blk m b = S_ s -> bytes s -> length s = sz ->
    runs (debug_Permute_Nrounds L n (P b 0) (N.of_nat r)) m
         ("   # Permuting " ++ dec r ++ " times #" ++ eol ++ "     " ++ hex (perm r s) ++ eol)%string (upd_nth m b (S_ (perm r s))).
  Proof.
    intros Hk Hr H Bs Hs. eapply runs_eq.
    - apply (after _ m b (perm r s)); [now apply (lo_perm _ _ _ _ _ HL)|eapply blk_some; eauto|now apply (lo_wf _ _ _ _ _ HL)].
    - rewrite !sapp_assoc. reflexivity.
    - reflexivity.
  Qed.
  Lemma d_extract m b s d off k : blk m b = S_ s -> length s = sz -> pb d <> b -> room m d k ->
    (off < sz)%nat -> (off + k <= sz)%nat ->
    runs (debug_ExtractBytes L (P b 0) d (N.of_nat off) (N.of_nat k)) m
         ("   # Extracting " ++ dec k ++ " bytes starting from state[" ++ dec off ++ "] #" ++ eol)%string
         (putp m d (firstn k (skipn off s))).
  Proof. intros. eapply runs_bind; [apply (lo_extract _ _ _ _ _ HL m b s); auto|apply runs_ret]. Qed.

  Lemma debug_lib_ok : lib_ok L' sz perm maxr okb.
  Proof.
    constructor.
    - apply (lo_sz _ _ _ _ _ HL).
    - intros. eapply drop, d_init; auto.
    - intros. eapply drop, d_add; auto.
    - intros m b d bs off s H Hd Hh H1 H2 H3. eapply runs_eq; [eapply drop, d_over; eauto|reflexivity|].
      unfold putp, put. cbn [pb po]. now rewrite Nat2N.id, H3.
    - intros. eapply drop, d_perm; auto.
    - intros. eapply drop, d_extract; eauto.
    - apply (lo_wf _ _ _ _ _ HL).
  Qed.
End Lib.

Lemma debug_correct v cf : impl_ok (v_inst v) cf (ref_consts (v_macros v)) (v_loc v cf) (debug_impl v cf).
Proof.
  destruct v; unfold debug_impl.
  - refine (ref_impl_ok _ Spec.ISAP_A_128A _ 12 _ cf (debug_lib_ok _ _ _ _ _ (ascon_lib_ok cf)) _). constructor; cbn; reflexivity || lia.
  - refine (ref_impl_ok _ Spec.ISAP_K_128A _ 20 _ cf (debug_lib_ok _ _ _ _ _ (keccak_lib_ok cf)) _). constructor; cbn; reflexivity || lia.
  - refine (ref_impl_ok _ Spec.ISAP_A_128 _ 12 _ cf (debug_lib_ok _ _ _ _ _ (ascon_lib_ok cf)) _). constructor; cbn; reflexivity || lia.
  - refine (ref_impl_ok _ Spec.ISAP_K_128 _ 20 _ cf (debug_lib_ok _ _ _ _ _ (keccak_lib_ok cf)) _). constructor; cbn; reflexivity || lia.
Qed.

Lemma debug_same_enc v cf mm c clen m ad npub k K Nn A T : ref_locals v cf mm -> ref_enc_valid v cf mm c clen m ad npub k K Nn A T ->
  exists m1, runs (a_enc (ref_impl v cf) c clen m (N.of_nat (length T)) ad (N.of_nat (length A)) npub k) mm 0%Z m1 /\
             runs (a_enc (debug_impl v cf) c clen m (N.of_nat (length T)) ad (N.of_nat (length A)) npub k) mm 0%Z m1.
Proof.
  intros Hl V. eexists. split; [apply (io_enc _ _ _ _ _ (ref_correct v cf)); eauto|apply (io_enc _ _ _ _ _ (debug_correct v cf)); auto].
Qed.
Lemma debug_same_dec v cf mm m mlen c ad npub k K Nn A Y : ref_locals v cf mm -> ref_dec_valid v cf mm m mlen c ad npub k K Nn A Y ->
  exists r m1, runs (a_dec (ref_impl v cf) m mlen c (N.of_nat (length Y)) ad (N.of_nat (length A)) npub k) mm r m1 /\
               runs (a_dec (debug_impl v cf) m mlen c (N.of_nat (length Y)) ad (N.of_nat (length A)) npub k) mm r m1.
Proof.
  intros Hl V. eexists _, _. split; [apply (io_dec _ _ _ _ _ (ref_correct v cf)); eauto|apply (io_dec _ _ _ _ _ (debug_correct v cf)); auto].
Qed.

Section Prints.
  Variables (v : variant) (cf : cfg).
  Notation L := (v_lib v cf).
  Notation sz := (i_sz (v_inst v)).
  Notation SZ := (ISAP_STATE_SZ (v_macros v)).
  Notation HL := (v_libok v cf).
  Lemma SZ_sz : SZ = N.of_nat sz.
  Proof. now destruct v. Qed.
  Lemma mine m b x : (b < length m)%nat -> blk (upd_nth m b x) b = x.
  Proof. intros H. rewrite blk_upd, Nat.eqb_refl. now destruct (Nat.ltb_spec b (length m)); [|lia]. Qed.

  Lemma pr_init m b : length (blk m b) = sz ->
    exists m' s, runs (pl_init L (P b 0)) m tt m' /\ blk m' b = S_ s /\
      runs (debug_Initialize L SZ (P b 0)) m ("   # Initializing state #" ++ eol ++ "     " ++ hex s ++ eol)%string m'.
  Proof.
    intros H. exists (upd_nth m b (S_ (repeat 0 sz))), (repeat 0 sz). split; [|split].
    - now apply (lo_init _ _ _ _ _ HL).
    - apply mine. eapply blk_len; [exact HL|auto].
    - rewrite SZ_sz. eapply d_init; [exact HL|auto].
  Qed.
  Lemma pr_add m b s d bs off : blk m b = S_ s -> length s = sz -> pb d <> b -> has m d bs ->
    (off < sz)%nat -> (off + length bs <= sz)%nat ->
    exists m' s', runs (pl_add L (P b 0) d (N.of_nat off) (N.of_nat (length bs))) m tt m' /\ blk m' b = S_ s' /\
      runs (debug_AddBytes L SZ (P b 0) d (N.of_nat off) (N.of_nat (length bs))) m
           ("   # Adding " ++ dec (length bs) ++ " bytes starting at state[" ++ dec off ++ "] #" ++ eol ++ "     " ++ hex s' ++ eol)%string m'.
  Proof.
    intros H Hs Hd Hh H1 H2. exists (upd_nth m b (S_ (addat s off bs))), (addat s off bs). split; [|split].
    - now apply (lo_add _ _ _ _ _ HL).
    - apply mine. eapply blk_some; [exact HL|eauto|auto].
    - rewrite SZ_sz. eapply d_add; [exact HL|auto..].
  Qed.
  Lemma pr_over m b d bs off s' : length (blk m b) = sz -> pb d <> b -> has m d bs ->
    (off < sz)%nat -> (off + length bs <= sz)%nat -> splice (blk m b) off (S_ bs) = S_ s' ->
    exists m', runs (pl_over L (P b 0) d (N.of_nat off) (N.of_nat (length bs))) m tt m' /\ blk m' b = S_ s' /\
      runs (debug_OverwriteBytes L SZ (P b 0) d (N.of_nat off) (N.of_nat (length bs))) m
           ("   # Overwriting " ++ dec (length bs) ++ " bytes starting at state[" ++ dec off ++ "] #" ++ eol ++ "     " ++ hex s' ++ eol)%string m'.
  Proof.
    intros H Hd Hh H1 H2 H3. exists (upd_nth m b (S_ s')). split; [|split].
    - eapply runs_eq; [apply (lo_over _ _ _ _ _ HL m b d bs off s'); auto|reflexivity|].
      unfold putp, put. cbn [pb po]. now rewrite Nat2N.id, H3.
    - apply mine. eapply blk_len; [exact HL|auto].
    - rewrite SZ_sz. eapply d_over; [exact HL|auto..].
  Qed.
  Lemma pr_perm m b s r : v_loc v cf b -> (r <= v_maxr v)%nat -> blk m b = S_ s -> bytes s -> length s = sz ->
    exists m' s', runs (pl_perm L (P b 0) (N.of_nat r)) m tt m' /\ blk m' b = S_ s' /\
      runs (debug_Permute_Nrounds L SZ (P b 0) (N.of_nat r)) m
           ("   # Permuting " ++ dec r ++ " times #" ++ eol ++ "     " ++ hex s' ++ eol)%string m'.
  Proof.
    intros Hk Hr H Bs Hs. exists (upd_nth m b (S_ (i_perm (v_inst v) r s))), (i_perm (v_inst v) r s). split; [|split].
    - now apply (lo_perm _ _ _ _ _ HL).
    - apply mine. eapply blk_some; [exact HL|eauto|auto].
    - rewrite SZ_sz. eapply d_perm; [exact HL|auto..].
  Qed.
  Lemma pr_extract m b s d off k : blk m b = S_ s -> length s = sz -> pb d <> b -> room m d k ->
    (off < sz)%nat -> (off + k <= sz)%nat ->
    exists m', runs (pl_extract L (P b 0) d (N.of_nat off) (N.of_nat k)) m tt m' /\
      runs (debug_ExtractBytes L (P b 0) d (N.of_nat off) (N.of_nat k)) m
           ("   # Extracting " ++ dec k ++ " bytes starting from state[" ++ dec off ++ "] #" ++ eol)%string m'.
  Proof.
    intros H Hs Hd Hr H1 H2. exists (putp m d (firstn k (skipn off s))). split.
    - now apply (lo_extract _ _ _ _ _ HL).
    - eapply d_extract; [exact HL|auto..].
  Qed.
End Prints.
