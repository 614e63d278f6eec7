(* The prototypes of isapxv20/ref (C66). Proofs only. *)
From Verif Require Import Base Prog SpecPerm Words RefPerm Mem Vocab Vocab2 VocabK MemProof RefLib Spec RefProof RefAead SpecFacts ExtProof.
From Verif Require Import RefIsap Trace RefTrace RefTrace2 Proto.
Open Scope list_scope.
Open Scope N_scope.
Open Scope cm_scope.

Lemma low_small w x : 6 <= w -> x < 64 -> low w x = x.
Proof.
  intros Hw Hx. unfold low. apply N.mod_small. apply N.lt_le_trans with (1 := Hx). change 64 with (2 ^ 6). apply N.pow_le_mono_r; lia.
Qed.

Lemma header_lib_ok w L sz perm maxr okb : 6 <= w -> (maxr <= 20)%nat -> lib_ok L sz perm maxr okb -> lib_ok (through_header w L) sz perm maxr okb.
Proof.
  intros Hw Hm H. pose proof (lo_sz _ _ _ _ _ H) as Hs.
  constructor; cbn [through_header pl_init pl_add pl_over pl_perm pl_extract].
  - exact Hs.
  - exact (lo_init _ _ _ _ _ H).
  - intros. rewrite !low_small by lia. now apply (lo_add _ _ _ _ _ H).
  - intros. rewrite !low_small by lia. now apply (lo_over _ _ _ _ _ H) with (s := s).
  - intros. rewrite low_small by lia. now apply (lo_perm _ _ _ _ _ H).
  - intros. rewrite !low_small by lia. now apply (lo_extract _ _ _ _ _ H).
  - exact (lo_wf _ _ _ _ _ H).
Qed.
Lemma header_ct w L : lib_ct L -> lib_ct (through_header w L).
Proof. intros H. constructor; intros; apply H. Qed.
Lemma header_grows w L : lib_grows L -> lib_grows (through_header w L).
Proof. intros H. constructor; intros; apply H. Qed.

Section W.
  Variables (w : N) (v : variant) (cf : cfg).
  Hypothesis Hw : 6 <= w.

  Lemma p_libok : lib_ok (through_header w (v_lib v cf)) (i_sz (v_inst v)) (i_perm (v_inst v)) (v_maxr v) (v_loc v cf).
  Proof. apply header_lib_ok; auto; [destruct v; cbn; lia|apply v_libok]. Qed.
  Lemma proto_ok : impl_ok (v_inst v) cf (ref_consts (v_macros v)) (v_loc v cf) (proto_impl w v cf).
  Proof. exact (ref_impl_ok _ _ _ _ _ cf p_libok (v_macok v)). Qed.
  Lemma proto_enc_trace mm mm' c clen m ad npub k K Nn A T K' Nn' A' T' :
    ref_locals v cf mm -> ref_enc_valid v cf mm c clen m ad npub k K Nn A T -> ref_enc_valid v cf mm' c clen m ad npub k K' Nn' A' T' ->
    length A = length A' -> length T = length T' -> layout mm mm' ->
    forall t, exists s s',
      a_enc (proto_impl w v cf) c clen m (N.of_nat (length T)) ad (N.of_nat (length A)) npub k (St mm t) = Ok 0%Z s /\
      a_enc (proto_impl w v cf) c clen m (N.of_nat (length T)) ad (N.of_nat (length A)) npub k (St mm' t) = Ok 0%Z s' /\
      strc s = strc s'.
  Proof. apply (ref_enc_trace _ _ _ _ _ cf p_libok (v_macok v) (header_ct w _ (v_ct v cf))). Qed.
  Lemma proto_dec_trace mm mm' m mlen c ad npub k K Nn A Y K' Nn' A' Y' :
    ref_locals v cf mm -> ref_dec_valid v cf mm m mlen c ad npub k K Nn A Y -> ref_dec_valid v cf mm' m mlen c ad npub k K' Nn' A' Y' ->
    length A = length A' -> length Y = length Y' -> layout mm mm' ->
    forall t, exists r s r' s' t0 u u',
      a_dec (proto_impl w v cf) m mlen c (N.of_nat (length Y)) ad (N.of_nat (length A)) npub k (St mm t) = Ok r s /\
      a_dec (proto_impl w v cf) m mlen c (N.of_nat (length Y)) ad (N.of_nat (length A)) npub k (St mm' t) = Ok r' s' /\
      strc s = u ++ EBr (r =? 0)%Z :: t0 /\ strc s' = u' ++ EBr (r' =? 0)%Z :: t0 /\
      (r <> 0%Z -> u = []) /\ (r' <> 0%Z -> u' = []) /\ (r = r' -> u = u').
  Proof. apply (ref_dec_trace _ _ _ _ _ cf p_libok (v_macok v) (header_ct w _ (v_ct v cf)) (header_grows w _ (v_grows v cf))). Qed.
End W.

(* Five bits are not enough: the byte before the end of the state of the Keccak instances is then another one. *)
Lemma five_bits cf m b s d x : blk m b = map Some s -> length s = 50%nat -> pb d <> b -> has m d [x] ->
  runs (pl_add (through_header 5 (keccak_lib cf)) (P b 0) d 49 1) m tt (upd_nth m b (map Some (firstn 17 s ++ N.lxor (nth 17 s 0) x :: skipn 18 s))).
Proof.
  intros Hb Hl Hd Hx.
  assert (E : addat s 17 [x] = firstn 17 s ++ N.lxor (nth 17 s 0) x :: skipn 18 s).
  { clear - Hl. do 19 (destruct s as [|? s]; [discriminate Hl|]). reflexivity. }
  rewrite <- E. cbn [through_header pl_add]. change (low 5 49) with (N.of_nat 17). change (low 5 1) with (N.of_nat (length [x])).
  apply (lo_add _ _ _ _ _ (keccak_lib_ok cf)); cbn [length]; auto; lia.
Qed.
