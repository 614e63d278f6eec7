(* What the Keccak reference computes on a big-endian machine taken for little-endian (C65). Proofs only. *)
From Coq Require Import Ascii String.
From Verif Require Import Base Prog SpecPerm Words RefPerm AsconProof KeccakProof Mem Vocab Vocab2 VocabK MemProof RefLib Spec Sponge RefProof RefAead SpecFacts.
From Verif Require Import RefIsap Api ApiProof ExLib ExtProof OptEx Kat Genkat VocabKat GenkatProof GenkatImpl V7mImpl.
From Verif Require Import ByteOrder VocabOrder ByteOrderProof BigEndian VocabBig.
Open Scope list_scope.
Open Scope N_scope.
Open Scope cm_scope.
Local Notation length := List.length.

(* ---------- the permutation ---------- *)

Lemma runs_be_load cf m b : even_ok cf b -> forall n o bs, length bs = (2 * n)%nat ->
  has m (P b (N.of_nat (2 * o))) bs ->
  runs (be_load_lanes cf n (P b (N.of_nat (2 * o)))) m (map be_word (chunks 2 bs)) m.
Proof.
  intros He. induction n as [|n IH]; intros o bs Hl H; cbn [be_load_lanes].
  - destruct bs; [apply runs_ret | simpl in Hl; lia].
  - destruct bs as [|x [|y bs]]; try (simpl in Hl; lia).
    eapply runs_bind.
    + apply (runs_loadn cf [x; y]).
      * intros i Hi. rewrite H by (simpl in *; lia). destruct i as [|[|i]]; auto. simpl in Hi; lia.
      * now apply aligned2.
    + eapply runs_bind; [|eapply runs_eq; [apply runs_ret| |reflexivity]].
      * replace (padd (P b (N.of_nat (2 * o))) 2) with (P b (N.of_nat (2 * S o))) by (unfold padd; cbn [pb po]; f_equal; lia).
        apply (IH (S o) bs).
        -- simpl in Hl. lia.
        -- intros i Hi. specialize (H (S (S i))). unfold padd in *. cbn [pb po] in *.
           replace (N.of_nat (2 * S o) + N.of_nat i) with (N.of_nat (2 * o) + N.of_nat (S (S i))) by lia.
           apply H. simpl. lia.
      * change (x :: y :: bs) with ([x; y] ++ bs). rewrite chunks_app by (auto; lia). reflexivity.
Qed.

Lemma word_be2_length w : length (word_be 2 w) = 2%nat.
Proof. reflexivity. Qed.

Lemma runs_be_store cf b : even_ok cf b -> forall ws m o,
  (2 * o + 2 * length ws <= length (blk m b))%nat ->
  runs (be_store_lanes cf ws (P b (N.of_nat (2 * o)))) m tt
       (putp m (P b (N.of_nat (2 * o))) (concat (map (word_be 2) ws))).
Proof.
  intros He. induction ws as [|w ws IH]; intros m o H; cbn [be_store_lanes map concat].
  - rewrite putp_nil. apply runs_ret.
  - cbn [length] in H.
    assert (Hr : room m (P b (N.of_nat (2 * o))) 2) by (apply room_block; lia).
    eapply runs_bind.
    + apply runs_storen; rewrite word_be2_length; auto. now apply aligned2.
    + replace (padd (P b (N.of_nat (2 * o))) 2) with (P b (N.of_nat (2 * S o))) by (unfold padd; cbn [pb po]; f_equal; lia).
      eapply runs_eq; [apply IH; rewrite blk_putp_len by (now rewrite word_be2_length); lia| |]; auto.
      rewrite <- putp_app_bytes.
      * f_equal. unfold padd. rewrite word_be2_length. cbn [pb po]. f_equal. lia.
      * apply room_block. rewrite app_length, word_be2_length.
        rewrite (concat_length_const 2); [rewrite map_length; lia|].
        apply Forall_map, Forall_forall. intros. apply word_be2_length.
Qed.

Lemma swapped_wf r s : (r <= 20)%nat -> bytes s -> length s = 50%nat -> bytes (swapped_p r s) /\ length (swapped_p r s) = 50%nat.
Proof.
  intros Hr B L. unfold swapped_p.
  destruct (keccak_p_bytes r (swap_lanes s) Hr (swap_bytes s B) ltac:(now rewrite swap_length)) as [B1 L1].
  split; [now apply swap_bytes|now rewrite swap_length].
Qed.
Lemma be_words r s : (r <= 20)%nat -> bytes s -> length s = 50%nat ->
  concat (map (word_be 2) (keccak_ref_words (N.of_nat r) (map be_word (chunks 2 s)))) = swapped_p r s.
Proof.
  intros Hr B L. pose proof (permute_mistaken r s Hr B L) as E. unfold permute in E. cbn in E. injection E as E. exact E.
Qed.

Lemma runs_be_Permute cf m b s r : even_ok cf b -> (r <= 20)%nat ->
  blk m b = map Some s -> bytes s -> length s = 50%nat ->
  runs (be_Permute_Nrounds cf (P b 0) (N.of_nat r)) m tt (upd_nth m b (map Some (swapped_p r s))).
Proof.
  intros He Hr Hb Hs Hl. unfold be_Permute_Nrounds.
  eapply runs_bind; [apply runs_emit|].
  assert (Hbl : length (blk m b) = 50%nat) by now rewrite Hb, map_length.
  eapply runs_bind; [apply (runs_be_load cf m b He 25 0 s); [lia|now apply has_blk0]|].
  assert (H25 : length (keccak_ref_words (N.of_nat r) (map be_word (chunks 2 s))) = 25%nat).
  { rewrite (swap_words 25) by auto.
    apply (keccak_ref_words_spec r _ Hr (words25_chunks (swap_lanes s) (swap_bytes s Hs) ltac:(now rewrite swap_length))). }
  eapply runs_eq; [apply (runs_be_store cf b He _ m 0); rewrite H25, Hbl; lia| |]; auto.
  rewrite be_words by auto. unfold putp, put. cbn [pb po]. f_equal. apply splice_all.
  destruct (swapped_wf r s Hr Hs Hl) as [_ Hp]. now rewrite map_length, Hp, Hbl.
Qed.

Lemma be_lib_ok cf : lib_ok (be_lib cf) 50 swapped_p 20 (even_ok cf).
Proof.
  constructor.
  - lia.
  - intros. now apply (runs_Initialize 50).
  - intros. apply (runs_AddBytes cf 50); auto.
  - intros. now apply runs_Keccak_Overwrite.
  - intros. now apply runs_be_Permute.
  - intros. apply (runs_Extract cf 50); auto.
  - intros. now apply swapped_wf.
Qed.

(* ---------- the scheme ---------- *)

Definition keccak (v : variant) : Prop := v = K128A \/ v = K128.

Section V.
  Variable v : variant.
  Hypothesis Hv : keccak v.
  Notation I := (swapped v).

  Lemma be_libok cf : lib_ok (be_lib cf) (i_sz I) (i_perm I) 20 (v_loc v cf).
  Proof. destruct Hv; subst v; exact (be_lib_ok cf). Qed.
  Lemma be_macok : mac_ok I (v_macros v) 20.
  Proof. destruct Hv; subst v; constructor; cbn; reflexivity || lia. Qed.
  Notation HL := (be_libok cf0).

  Lemma be_ok cf : impl_ok I cf (ref_consts (v_macros v)) (v_loc v cf) (be_impl v cf).
  Proof. exact (ref_impl_ok _ I _ 20 _ cf (be_libok cf) be_macok). Qed.

  Lemma be_encf : encf_ok (Spec.isap_enc I).
  Proof.
    intros K Nn T LK LN BK BN BT. split; [exact (enc_bytes _ _ _ _ _ HL be_macok K Nn T LK LN BK BN BT)|].
    exact (enc_length _ _ _ _ _ HL be_macok K Nn T LK LN BK BN).
  Qed.
  Lemma be_macf : macf_ok (Spec.isap_mac I).
  Proof. intros K Nn A C. exact (mac_length _ _ _ _ _ HL be_macok K Nn A C). Qed.
  Lemma be_invol K Nn T : length K = 16%nat -> length Nn = 16%nat -> bytes K -> bytes Nn -> Spec.isap_enc I K Nn (Spec.isap_enc I K Nn T) = T.
  Proof.
    intros LK LN BK BN. assert (L := fun X => enc_length _ _ _ _ _ HL be_macok K Nn X LK LN BK BN).
    assert (E := fun X => isap_enc_spec _ _ _ _ _ HL be_macok K Nn X LK LN BK BN).
    apply (nth_ext_le _ _ 0); [now rewrite !L|]. intros i Hi. rewrite !L in Hi.
    assert (Hn : forall X, length X = length T -> nth i (Spec.isap_enc I K Nn X) 0 =
      N.lxor (nth i X 0) (ks_byte (i_rate I) (i_perm I (i_sE I)) (enc_state I K Nn) i)).
    { intros X LX. rewrite E. rewrite (nth_map_lt _ _ _ 0%nat) by (rewrite seq_length; lia). now rewrite seq_nth by lia. }
    rewrite Hn by apply L. rewrite Hn by reflexivity. now rewrite N.lxor_assoc, N.lxor_nilpotent, N.lxor_0_r.
  Qed.

  Section Calls.
    Variable cf : cfg.
    Notation cs := (ref_consts (v_macros v)).
    Notation X := (be_impl v cf).

    Lemma be_round_trip mm c clen m ad npub k mm' m' mlen' c' ad' npub' k' K Nn A T Y :
      ref_locals v cf mm -> enc_valid cf cs mm c clen m ad npub k K Nn A T ->
      ref_locals v cf mm' -> dec_valid cf cs mm' m' mlen' c' ad' npub' k' K Nn A Y ->
      (exists m1, runs (a_enc X c clen m (N.of_nat (length T)) ad (N.of_nat (length A)) npub k) mm 0%Z m1 /\ has m1 c Y /\ length Y = (length T + 16)%nat) ->
      runs (a_dec X m' mlen' c' (N.of_nat (length Y)) ad' (N.of_nat (length A)) npub' k') mm' 0%Z
           (putp (putp mm' mlen' (word_le 8 (N.of_nat (length T)))) m' T).
    Proof.
      intros C V C' V' (m1 & R & H & L).
      pose proof (proj1 (ev_key _ _ _ _ _ _ _ _ _ _ _ _ _ V)) as [BK _]. pose proof (proj2 (ev_key _ _ _ _ _ _ _ _ _ _ _ _ _ V)) as LK.
      pose proof (proj1 (ev_nonce _ _ _ _ _ _ _ _ _ _ _ _ _ V)) as [BN _]. pose proof (proj2 (ev_nonce _ _ _ _ _ _ _ _ _ _ _ _ _ V)) as LN.
      pose proof (proj1 (ev_ad _ _ _ _ _ _ _ _ _ _ _ _ _ V)) as [BA _]. pose proof (proj1 (ev_msg _ _ _ _ _ _ _ _ _ _ _ _ _ V)) as [BT _].
      pose proof (s_encrypt I be_encf be_macf be_invol K Nn A LK LN BK BN BA T BT) as [BY LY].
      pose proof (s_decrypt_encrypt I be_encf be_macf be_invol K Nn A LK LN BK BN BA T BT) as ED.
      pose proof (ioi_enc _ _ _ _ _ (ioi_of_ok _ _ _ _ _ (be_ok cf)) mm c clen m ad npub k K Nn A T C V) as R1.
      set (Z := Spec.isap_encrypt I K Nn A T) in *.
      destruct (runs_det _ _ _ _ _ _ R R1) as [_ Em].
      assert (HZ : has m1 c Z).
      { rewrite Em. apply has_putp_same. rewrite LY. apply room_putp; [rewrite word_le_length|]; apply V. }
      assert (E : Y = Z).
      { apply (nth_ext_le _ _ 0); [lia|]. intros i Hi. specialize (H i Hi). specialize (HZ i ltac:(lia)). congruence. }
      subst Y. clearbody Z.
      pose proof (ioi_dec _ _ _ _ _ (ioi_of_ok _ _ _ _ _ (be_ok cf)) mm' m' mlen' c' ad' npub' k' K Nn A Z C' V') as R2. cbv zeta in R2.
      rewrite ED, LY in R2. rewrite LY. replace (N.of_nat (length T + 16) - 16) with (N.of_nat (length T)) in R2 by lia. exact R2.
    Qed.

    Lemma be_accepts mm m mlen c ad npub k K Nn A Y :
      ref_locals v cf mm -> dec_valid cf cs mm m mlen c ad npub k K Nn A Y ->
      exists r m1, runs (a_dec X m mlen c (N.of_nat (length Y)) ad (N.of_nat (length A)) npub k) mm r m1 /\
        (r = 0%Z <-> exists T, bytes T /\ Y = Spec.isap_encrypt I K Nn A T).
    Proof.
      intros C V.
      pose proof (proj1 (dv_key _ _ _ _ _ _ _ _ _ _ _ _ _ V)) as [BK _]. pose proof (proj2 (dv_key _ _ _ _ _ _ _ _ _ _ _ _ _ V)) as LK.
      pose proof (proj1 (dv_nonce _ _ _ _ _ _ _ _ _ _ _ _ _ V)) as [BN _]. pose proof (proj2 (dv_nonce _ _ _ _ _ _ _ _ _ _ _ _ _ V)) as LN.
      pose proof (proj1 (dv_ad _ _ _ _ _ _ _ _ _ _ _ _ _ V)) as [BA _]. pose proof (proj1 (dv_ct _ _ _ _ _ _ _ _ _ _ _ _ _ V)) as [BY _].
      pose proof (ioi_dec _ _ _ _ _ (ioi_of_ok _ _ _ _ _ (be_ok cf)) mm m mlen c ad npub k K Nn A Y C V) as R. cbv zeta in R.
      eexists _, _. split; [exact R|]. clear R. split.
      - destruct (Spec.isap_decrypt I K Nn A Y) as [T|] eqn:E; [|discriminate]. intros _. exists T.
        exact (s_decrypt_Some I be_encf be_invol K Nn A LK LN BK BN Y T BY E).
      - intros (T & BT & ->).
        now rewrite (s_decrypt_encrypt I be_encf be_macf be_invol K Nn A LK LN BK BN BA T BT).
    Qed.

    (* ---------- the test program ---------- *)

    Notation CT a t := (Spec.isap_encrypt I (count_up 16) (count_up 16) (count_up a) (count_up t)).
    Lemma be_ct a t : bytes (CT a t) /\ length (CT a t) = (t + 16)%nat.
    Proof.
      rewrite <- (count_up_length t) at 3.
      apply (s_encrypt I be_encf be_macf be_invol); auto using count_up_bytes, count_up_length.
    Qed.
    Lemma be_ct_dec a t : Spec.isap_decrypt I (count_up 16) (count_up 16) (count_up a) (CT a t) = Some (count_up t).
    Proof. apply (s_decrypt_encrypt I be_encf be_macf be_invol); auto using count_up_bytes, count_up_length. Qed.

    Lemma be_genkat mm : consts_ok cs mm -> (length cs <= length mm)%nat ->
      aligned cf (P (length mm + 6) 0) 8 = true -> aligned cf (P (length mm + 7) 0) 8 = true ->
      (forall b, (length mm + 8 <= b)%nat -> v_loc v cf b) ->
      runs (genkat_main X cf true) mm (0%Z, Some (file_name, kat_file I), ""%string) mm.
    Proof.
      intros Hc Hn Al Al' Hl.
      exact (exact_genkat I cf cs _ X mm (ioi_of_ok _ _ _ _ _ (be_ok cf)) (fun a t => proj2 (be_ct a t)) (fun a t => proj1 (be_ct a t)) be_ct_dec
        Hc Hn Al Al' (calls_loc _ _ Hl)).
    Qed.
  End Calls.
End V.

(* ---------- the first entry of the file for ISAP-K-128A ---------- *)

Definition first_be : list N := [58; 80; 31; 161; 126; 177; 52; 70; 206; 105; 96; 236; 96; 86; 212; 63].
Definition first_k : list N := [26; 161; 242; 248; 153; 1; 164; 27; 6; 100; 198; 149; 212; 215; 171; 185].

Lemma first_be_ok : Spec.isap_encrypt (swapped K128A) (count_up 16) (count_up 16) (count_up 0) (count_up 0) = first_be.
Proof.
  apply (kat_spec_I (swapped K128A) lax_cf (ref_consts (v_macros K128A)) (loc_ext (v_loc K128A lax_cf)) (be_impl K128A lax_cf)).
  - apply ioi_of_ok, be_ok. now left.
  - apply (be_ct K128A (or_introl eq_refl) 0 0).
  - reflexivity.
  - intros b _. discriminate.
  - apply count_up_bytes.
  - reflexivity.
  - apply count_up_bytes.
  - reflexivity.
  - constructor.
  - constructor.
  - reflexivity.
  - reflexivity.
  - vm_compute. reflexivity.
Qed.
Lemma first_k_ok : Spec.isap_encrypt Spec.ISAP_K_128A (count_up 16) (count_up 16) (count_up 0) (count_up 0) = first_k.
Proof.
  apply (kat_spec_I Spec.ISAP_K_128A lax_cf (ref_consts (v_macros K128A)) (loc_ext (v_loc K128A lax_cf)) (ref_impl K128A lax_cf)).
  - apply ioi_of_ok. exact (ref_correct K128A lax_cf).
  - exact (ct_len K128A 0 0).
  - reflexivity.
  - intros b _. discriminate.
  - apply count_up_bytes.
  - reflexivity.
  - apply count_up_bytes.
  - reflexivity.
  - constructor.
  - constructor.
  - reflexivity.
  - reflexivity.
  - vm_compute. reflexivity.
Qed.
Lemma be_files_differ : kat_file (swapped K128A) <> kat_file Spec.ISAP_K_128A.
Proof.
  rewrite !kat_file_first. generalize (String.concat "" (map (fun i => kat_entry (swapped K128A) (S i) (i / 33) (i mod 33)) (seq 1 1088))).
  generalize (String.concat "" (map (fun i => kat_entry Spec.ISAP_K_128A (S i) (i / 33) (i mod 33)) (seq 1 1088))).
  intros s1 s2 E. unfold kat_entry in E. rewrite first_be_ok, first_k_ok in E. vm_compute in E. discriminate E.
Qed.
Lemma be_rejects cf mm m mlen c ad npub k : ref_locals K128A cf mm ->
  dec_valid cf (ref_consts (v_macros K128A)) mm m mlen c ad npub k (count_up 16) (count_up 16) [] first_k ->
  exists m1, runs (a_dec (be_impl K128A cf) m mlen c 16 ad 0 npub k) mm (-1)%Z m1.
Proof.
  intros C V.
  pose proof (ioi_dec _ _ _ _ _ (ioi_of_ok _ _ _ _ _ (be_ok K128A (or_introl eq_refl) cf)) mm m mlen c ad npub k _ _ _ _ C V) as R. cbv zeta in R.
  destruct (Spec.isap_decrypt _ _ _ _ _) as [T|] eqn:E; [|eexists; exact R]. exfalso.
  pose proof (be_encf K128A (or_introl eq_refl)) as H1. pose proof (be_invol K128A (or_introl eq_refl)) as H2.
  assert (BK : bytes (count_up 16)) by apply count_up_bytes.
  assert (BY : bytes first_k) by apply V.
  destruct (s_decrypt_Some (swapped K128A) H1 H2 (count_up 16) (count_up 16) [] eq_refl eq_refl BK BK first_k T BY E) as [BT EY].
  assert (L : length first_k = (length T + 16)%nat).
  { rewrite EY. apply (s_encrypt (swapped K128A) H1 (be_macf K128A (or_introl eq_refl)) H2 (count_up 16) (count_up 16) []); auto. constructor. }
  destruct T; [|cbn in L; lia].
  change (Spec.isap_encrypt (swapped K128A) (count_up 16) (count_up 16) [] [])
    with (Spec.isap_encrypt (swapped K128A) (count_up 16) (count_up 16) (count_up 0) (count_up 0)) in EY.
  rewrite first_be_ok in EY. discriminate EY.
Qed.
