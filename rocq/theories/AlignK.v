(* isapk128v20/opt_64 and isapk128av20/opt_64 on a machine that requires alignment, called with aligned pointers and at most 35 bytes of
   associated data and of text. Proofs only. *)
From Verif Require Import Base SpecPerm Words Mem Vocab Vocab2 VocabK MemProof RefLib RefProof RefAead Api ApiProof ExLib OptPerm OptIsap OptProof OptEx.
From Verif Require Import A128 K64Perm KIsap KIsapProof K64Impl ShortUb AlignEq.
From Verif Require Spec RefIsap ApiCode.
Open Scope N_scope.
Open Scope cm_scope.

Lemma al2_padd cf p k : aligned cf p 2 = true -> k mod 2 = 0 -> aligned cf (padd p k) 2 = true.
Proof.
  unfold aligned. destruct (strict cf); auto. cbn [negb orb padd pb po]. intros E Hk. apply N.eqb_eq in E. apply N.eqb_eq.
  change (N.of_nat 2) with 2 in *. lia.
Qed.
Lemma al8_2 cf p : al8 cf p -> aligned cf p 2 = true.
Proof.
  intros H. pose proof (al8_here _ _ H) as E. unfold aligned in *. destruct (strict cf); auto. cbn [negb orb] in *. apply N.eqb_eq in E. apply N.eqb_eq.
  change (N.of_nat 8) with 8 in E. change (N.of_nat 2) with 2. lia.
Qed.

Lemma sim_load_lanes {n} cf k : forall p, aligned cf p 2 = true -> sim n (RefIsap.load_lanes cf k p) (RefIsap.load_lanes (lx cf) k p) any1.
Proof.
  induction k as [|k IH]; intros p H; cbn [RefIsap.load_lanes]; [now apply sim_ret|].
  eapply sim_bind; [now apply sim_loadn|]. intros. eapply sim_bind; [apply IH; now apply al2_padd|]. intros. now apply sim_ret.
Qed.
Lemma sim_store_lanes {n} cf ws : forall p, aligned cf p 2 = true -> sim n (RefIsap.store_lanes cf ws p) (RefIsap.store_lanes (lx cf) ws p) any1.
Proof.
  induction ws as [|w ws IH]; intros p H; cbn [RefIsap.store_lanes]; [now apply sim_ret|].
  eapply sim_bind; [apply sim_storen; now rewrite word_le_length|]. intros. apply IH. now apply al2_padd.
Qed.
Lemma sim_lo16 {n} cf p : aligned cf p 8 = true -> sim n (load_lo16 cf p) (load_lo16 (lx cf) p) any1.
Proof.
  intros H. unfold load_lo16. rewrite H. cbn. apply sim_bind with (R := any1); [apply sim_emit|]. intros _ _ s Hs. split; auto.
  destruct (inside (smem s) _); auto. exact (proj2 (@sim_loads_ n 2 p s Hs)).
Qed.

Section K.
  Variables (scr : st -> list N) (R : krounds) (cf : cfg).
  Notation o := (k64_ops scr).

  Lemma sim_permute {n} r s : sim n (permute o r s) (permute o r s) any1.
  Proof.
    apply sim_bind with (R := any1); [apply sim_emit|]. intros _ _ z Hz. split; auto. cbn. unfold any1. auto.
  Qed.
  Lemma sim_k64_store {n} s i k p : aligned cf p 2 = true -> sim n (k64_store cf s i k p) (k64_store (lx cf) s i k p) any1.
  Proof. intros H. apply sim_store_lanes. apply al2_padd; auto. lia. Qed.
  Lemma sim_k64_out {n} s out outlen : aligned cf out 2 = true -> sim n (k_out o cf s out outlen) (k_out o (lx cf) s out outlen) any1.
  Proof.
    intros H. cbn [k_out k64_ops]. unfold k64_out. apply sim_bind with (R := any1); [now apply sim_k64_store|]. intros.
    apply sim_if; intros; [now apply sim_k64_store|now apply sim_ret].
  Qed.
  Lemma sim_k64_src {n} p : al8 cf p -> sim n (k64_load_src cf p) (k64_load_src (lx cf) p) any1.
  Proof.
    intros H. unfold k64_load_src. do 2 (apply sim_bind with (R := any1); [apply sim_loadn; al|intros]).
    apply sim_bind with (R := any1); [apply sim_lo16; al|intros]. now apply sim_ret.
  Qed.
  Lemma sim_k64_m {n} p : al8 cf p -> sim n (k64_load_m cf p) (k64_load_m (lx cf) p) any1.
  Proof.
    intros H. unfold k64_load_m. do 2 (apply sim_bind with (R := any1); [apply sim_loadn; al|intros]).
    apply sim_bind with (R := any1); [apply sim_loadn|intros; now apply sim_ret]. apply al2_padd; [now apply al8_2|reflexivity].
  Qed.

  (* At most one full block is read with wide accesses, at the beginning. *)
  Definition one_block (st : list N * N * N) : Prop := (snd (fst st) = 0 /\ snd st <= 35) \/ snd st <= 17.
  Lemma sim_k64_absorb {n} s src len : al8 cf src -> len <= 35 ->
    sim n (KIsap.ABSORB_MAC o R cf s src len) (KIsap.ABSORB_MAC o R (lx cf) s src len) any1.
  Proof.
    intros H Hl. unfold KIsap.ABSORB_MAC. eapply sim_bind.
    - apply (sim_while one_block); [|left; cbn [fst snd]; lia].
      intros [[s1 i] r] HI Hr. cbn [fst snd] in *. apply N.ltb_lt in Hr. unfold one_block in HI. cbn [fst snd] in HI.
      destruct HI as [[-> Hi]|Hi]; [|lia]. unfold KIsap.absorb_full. cbn [k_load_src k64_ops].
      apply sim_bind with (R := any1); [rewrite padd0; now apply sim_k64_src|intros]. apply sim_bind with (R := any1); [apply sim_permute|intros].
      apply sim_ret. right. cbn [snd]. rewrite sub64_small; lia.
    - intros [[s1 i] r] [HI Hr]. cbn [fst snd] in *. unfold one_block in HI. cbn [fst snd] in HI. apply sim_if; intros E.
      + destruct HI as [[-> Hi]|Hi]; [|lia]. cbn [k_load_src k64_ops]. rewrite padd0.
        apply sim_bind with (R := any1); [now apply sim_k64_src|intros]. apply sim_bind with (R := any1); [apply sim_permute|intros]. apply sim_permute.
      + apply sim_bind with (R := any1); [|intros; apply sim_permute]. sim_go.
  Qed.
  Lemma sim_k64_rk {n} k iv y ylen out outlen : aligned cf k 2 = true -> aligned cf iv 2 = true -> aligned cf out 2 = true ->
    sim n (KIsap.isap_rk o R cf k iv y ylen out outlen) (KIsap.isap_rk o R (lx cf) k iv y ylen out outlen) any1.
  Proof.
    intros Hk Hi Ho. unfold KIsap.isap_rk, KX, BX, init. cbn [k_init k64_ops].
    do 2 (apply sim_bind with (R := any1); [now apply sim_load_lanes|intros]). apply sim_bind with (R := any1); [now apply sim_ret|intros].
    apply sim_bind with (R := any1); [apply sim_permute|intros].
    apply sim_bind with (R := any1).
    { apply sim_for with (I := any1); [|exact Logic.I]. intros. apply sim_bind with (R := any1); [apply sim_load|intros]. apply sim_permute. }
    intros. apply sim_bind with (R := any1); [apply sim_load|intros]. apply sim_bind with (R := any1); [apply sim_permute|intros]. now apply sim_k64_out.
  Qed.
  Hypothesis Hc : forall i, (i < 3)%nat -> al8 cf (P i 0).
  Lemma sim_k64_mac n k npub ad adlen c clen tag : (forall b, (n <= b)%nat -> al8 cf (P b 0)) ->
    al8 cf k -> al8 cf npub -> al8 cf ad -> al8 cf c -> adlen <= 35 -> clen <= 35 -> aligned cf tag 2 = true ->
    sim n (KIsap.isap_mac o R cf k npub ad adlen c clen tag) (KIsap.isap_mac o R (lx cf) k npub ad adlen c clen tag) any1.
  Proof.
    intros Hl Hk Hn Ha Hcc La Lc Ht. unfold KIsap.isap_mac, HX, init, iv1_pair. cbn [k_init k64_ops].
    assert (Hiv : aligned cf RefIsap.ISAP_IV_KA 2 = true) by (apply al8_2, Hc; lia).
    apply sim_bind with (R := any1); [now apply sim_load_lanes, al8_2|intros].
    do 4 (apply sim_bind with (R := any1); [do 2 (apply sim_bind with (R := any1); [apply sim_load|intros]); now apply sim_ret|intros]).
    apply sim_bind with (R := any1); [now apply sim_ret|intros]. apply sim_bind with (R := any1); [apply sim_permute|intros].
    do 2 (apply sim_bind with (R := any1); [now apply sim_k64_absorb|intros]).
    apply sim_with_block. intros b Hb. cbn [k_store16 k_load16 k64_ops].
    assert (Hlo : aligned cf (P b 0) 2 = true) by now apply al8_2, Hl.
    apply sim_bind with (R := any1); [now apply sim_k64_store|intros].
    apply sim_bind with (R := any1); [apply sim_k64_rk; auto using al8_2|intros].
    apply sim_bind with (R := any1).
    { apply sim_bind with (R := any1); [now apply sim_load_lanes|intros]. now apply sim_ret. }
    intros. apply sim_bind with (R := any1); [apply sim_permute|intros]. now apply sim_k64_store.
  Qed.
  Lemma sim_squeeze {n} s m c : al8 cf m -> sim n (squeeze_lane o cf s m c 0) (squeeze_lane o (lx cf) s m c 0) any1.
  Proof.
    intros H. unfold squeeze_lane. cbn [k_load_m k64_ops]. apply sim_bind with (R := any1); [rewrite padd0; now apply sim_k64_m|intros].
    cbv zeta. apply sim_bind with (R := any1); [apply sim_emit|intros]. apply sim_stores_.
  Qed.
  Lemma sim_k64_enc n k npub m mlen c : (forall b, (n <= b)%nat -> al8 cf (P b 0)) ->
    al8 cf k -> al8 cf npub -> al8 cf m -> mlen <= 35 ->
    sim n (KIsap.isap_enc o R cf k npub m mlen c) (KIsap.isap_enc o R (lx cf) k npub m mlen c) any1.
  Proof.
    intros Hl Hk Hn Hm Lm. unfold KIsap.isap_enc, EX, init. cbn [k_init k64_ops].
    assert (Hiv : aligned cf RefIsap.ISAP_IV_KE 2 = true) by (apply al8_2, Hc; lia).
    apply sim_with_block. intros b Hb.
    assert (Hlo : aligned cf (P b 0) 2 = true) by now apply al8_2, Hl.
    apply sim_bind with (R := any1); [apply sim_k64_rk; auto using al8_2|intros].
    do 2 (apply sim_bind with (R := any1); [apply sim_load_lanes; auto using al8_2|intros]). apply sim_bind with (R := any1); [now apply sim_ret|intros].
    apply sim_bind with (R := any1); [apply sim_permute|intros].
    eapply sim_bind.
    - apply (sim_while one_block); [|left; cbn [fst snd]; lia].
      intros [[s1 i] r] HI Hr. cbn [fst snd] in *. apply N.ltb_lt in Hr. unfold one_block in HI. cbn [fst snd] in HI.
      destruct HI as [[-> Hi]|Hi]; [|lia]. unfold KIsap.enc_full.
      apply sim_bind with (R := any1); [now apply sim_squeeze|intros]. apply sim_bind with (R := any1); [apply sim_permute|intros].
      apply sim_ret. right. cbn [snd]. rewrite sub64_small; lia.
    - intros [[s1 i] r] [HI Hr]. cbn [fst snd] in *. unfold one_block in HI. cbn [fst snd] in HI. apply sim_if; intros E.
      + destruct HI as [[-> Hi]|Hi]; [|lia]. now apply sim_squeeze.
      + sim_go.
  Qed.
End K.
