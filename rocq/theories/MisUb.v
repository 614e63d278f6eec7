(* On a machine that requires alignment the optimised ISAP-A-128 implementations and isapk opt_64 are undefined on calls with aligned buffers.
   Proofs only. *)
From Verif Require Import Base Prog SpecPerm Words Mem Vocab Vocab2 VocabAlign MemProof RefLib RefProof RefAead Api ApiProof ExLib OptPerm OptIsap OptProof OptEx.
From Verif Require Import A128Perm A128PermProof A128 A128Proof A128Impl K64Perm KIsap K64Impl ShortUb AlignEq.
From Verif Require Spec RefIsap ApiCode.
Open Scope N_scope.
Open Scope cm_scope.

Lemma pu_store_mis {b L} cf vs p (Q : unit -> Prop) : aligned cf p (length vs) = false -> pu b L (storen cf vs p) Q.
Proof. intros H. unfold storen. rewrite H. apply pu_fail. Qed.
Lemma pu_ull_mis {b L} cf v p (Q : unit -> Prop) : aligned cf p 8 = false -> pu b L (RefIsap.store_ull cf p v) Q.
Proof. intros H. apply pu_store_mis. now rewrite word_le_length. Qed.
Lemma mis_addr cf p n : strict cf = true -> addr cf p mod N.of_nat n <> 0 -> aligned cf p n = false.
Proof. intros H E. unfold aligned. rewrite H. cbn [negb orb]. apply N.eqb_neq. exact E. Qed.

Ltac pu_auto :=
  repeat first
    [ progress intros
    | pu_atom
    | apply pu_ret; exact Logic.I
    | apply pu_if
    | apply pu_with_block
    | apply pu_for_any
    | apply pu_bind with (R := any1)
    | match goal with x : (_ * _)%type |- _ => destruct x end ].

(* ---------- isapa128v20 ---------- *)

Lemma pu_rk64 {b L} a cf k iv y ylen out outlen : pu b L (isap_rk_64 a cf k iv y ylen out outlen) any1.
Proof. unfold isap_rk_64, P12. pu_auto. Qed.
Lemma pu_rk32 {b L} a u cf k iv y out outlen : pu b L (isap_rk_32 a u cf k iv y out outlen) any1.
Proof. unfold isap_rk_32, store_eo, store32. pu_auto. Qed.

Lemma pu_mac64 {b L} a UL cf k npub ad adlen c n tag (Q : unit -> Prop) : 3 <= UL -> aligned cf tag 8 = false ->
  pu b L (isap_mac_64 a UL cf k npub ad adlen c n tag) Q.
Proof.
  intros HU Ht. unfold isap_mac_64, P12. apply pu_with_block. intros state.
  do 4 (apply pu_bind with (R := any1); [pu_auto|intros]).
  do 2 (eapply pu_bind; [now apply pu_absorb_mac|intros ? _]).
  do 5 (apply pu_bind with (R := any1); [pu_auto|intros]). apply pu_bind with (R := any1); [apply pu_rk64|intros].
  do 6 (apply pu_bind with (R := any1); [pu_auto|intros]). apply pu_bind_false, pu_ull_mis. now rewrite padd0.
Qed.
Lemma pu_mac32 {b L} a u cf k npub ad adlen c n tag (Q : unit -> Prop) : adlen < 2 ^ 64 -> n < 2 ^ 64 -> aligned cf tag 8 = false ->
  pu b L (isap_mac_32 a u cf k npub ad adlen c n tag) Q.
Proof.
  intros Ha Hn Ht. unfold isap_mac_32, load_eo, load32.
  do 4 (apply pu_bind with (R := any1); [pu_auto|intros]).
  do 2 (eapply pu_bind; [now apply pu_absorb_32|intros ? _]).
  apply pu_with_block; intros y64.
  do 2 (apply pu_bind with (R := any1); [pu_auto|intros]). apply pu_with_block; intros ks.
  apply pu_bind with (R := any1); [apply pu_rk32|intros].
  do 3 (apply pu_bind with (R := any1); [pu_auto|intros]). apply pu_bind_false, pu_ull_mis. now rewrite padd0.
Qed.

Lemma pu_enc64 {b L} a UL cf k npub m mlen c : mlen < 2 ^ 64 -> pu b L (isap_enc_64 a UL cf k npub m mlen c) any1.
Proof.
  intros Hl. unfold isap_enc_64, P12. apply pu_with_block. intros sp.
  apply pu_bind with (R := any1); [apply pu_rk64|intros].
  do 6 (apply pu_bind with (R := any1); [pu_auto|intros]).
  apply pu_bind with (R := any1); [|intros [[s1 i] r] _; pu_auto].
  set (n := N.to_nat ((mlen - 1) / 8)).
  assert (Hn : N.of_nat n = (mlen - 1) / 8) by (unfold n; lia).
  pose proof (N.div_mod (mlen - 1) 8 ltac:(lia)) as Hd. pose proof (N.mod_lt (mlen - 1) 8 ltac:(lia)) as Hm.
  assert (Hq : (mlen - 1) / 8 <= mlen / 8) by (apply N.div_le_mono; lia).
  eapply pu_weaken; [|intros; exact Logic.I].
  apply (pu_while0 (fun k (st : state * N * N) => snd st = mlen - 8 * N.of_nat k /\ 8 * N.of_nat k <= mlen) _ _ n); [| |lia|].
  - intros j [[s' i] r] Hk (E & _). cbn [snd] in *. subst r. destruct (N.ltb_spec 8 (mlen - 8 * N.of_nat j)); destruct (Nat.ltb_spec j n); lia.
  - intros j [[s' i] r] Hk (E & E2). cbn [fst snd] in *. subst r. unfold enc_full_64.
    do 3 (apply pu_bind with (R := any1); [unfold P12; pu_auto|intros]). apply pu_ret. cbn [snd]. rewrite sub64_small; lia.
  - cbn [snd]. lia.
Qed.
Lemma pu_enc32 {b L} a u cf k npub m mlen c : mlen < 2 ^ 64 -> pu b L (isap_enc_32 a u cf k npub m mlen c) any1.
Proof.
  intros Hl. unfold isap_enc_32, load_eo, load32. apply pu_with_block. intros ke.
  apply pu_bind with (R := any1); [apply pu_rk32|intros].
  do 5 (apply pu_bind with (R := any1); [pu_auto|intros]).
  apply pu_bind with (R := any1).
  - set (n := N.to_nat (mlen / 8)).
    assert (Hn : N.of_nat n = mlen / 8) by (unfold n; lia).
    eapply pu_weaken; [|intros; exact Logic.I].
    apply (pu_while0 (fun k (st : state * ptr * N * ptr) => snd (fst st) = mlen - 8 * N.of_nat k /\ 8 * N.of_nat k <= mlen) _ _ n); [| |lia|].
    + intros j [[[s' p] r] q] Hk (E & _). cbn [fst snd] in *. subst r. destruct (N.leb_spec 8 (mlen - 8 * N.of_nat j)); destruct (Nat.ltb_spec j n); lia.
    + intros j [[[s' p] r] q] Hk (E & E2). cbn [fst snd] in *. subst r. unfold enc_full_32.
      do 3 (apply pu_bind with (R := any1); [pu_auto|intros]). apply pu_ret. cbn [fst snd]. rewrite sub64_small; lia.
    + cbn [fst snd]. lia.
  - intros [[[s1 p] r] q] _. apply pu_if; intros _; [|now apply pu_ret]. apply pu_bind with (R := any1); [pu_auto|intros s2 _].
    apply pu_bind with (R := any1); [|intros; now apply pu_ret]. apply pu_for_any. intros i [m' c']. pu_auto.
Qed.

(* Encryption stores the tag with accesses to 8-byte objects right behind the ciphertext. *)
Definition enc_pu (enc : forall (k npub m : ptr) (mlen : N) (c : ptr), M unit) : Prop :=
  forall b L k npub m mlen c, mlen < 2 ^ 64 -> pu b L (enc k npub m mlen c) any1.
Definition mac_mis (al : ptr -> bool) (mac : forall (k npub ad : ptr) (adlen : N) (c : ptr) (clen : N) (tag : ptr), M unit) : Prop :=
  forall b L k npub ad adlen c n tag, adlen < 2 ^ 64 -> n < 2 ^ 64 -> al tag = false -> pu b L (mac k npub ad adlen c n tag) (fun _ => False).

Lemma api_tag_mis al cf enc mac mm c clen m mlen ad adlen npub k : enc_pu enc -> mac_mis al mac ->
  mlen < 2 ^ 64 -> adlen < 2 ^ 64 -> (0 < length mm)%nat -> al (padd c mlen) = false ->
  forall t, a_enc (api_aead cf enc mac) c clen m mlen ad adlen npub k (St mm t) = UB.
Proof.
  intros He Hm Lm La Hmm Ha. cbn [api_aead a_enc]. unfold ApiCode.crypto_aead_encrypt.
  apply (pu_ub 0 (length (blk mm 0))); auto.
  apply pu_bind with (R := any1); [pu_auto|intros]. apply pu_bind with (R := any1); [apply pu_if; intros _; [now apply He|now apply pu_ret]|intros].
  apply pu_bind_false. now apply Hm.
Qed.

(* ---------- isapk128v20/opt_64 and isapk128av20/opt_64 ---------- *)

Lemma two_loads cf p : strict cf = true -> aligned cf p 8 = true -> aligned cf (padd p 18) 8 = true -> False.
Proof.
  intros H E1 E2. unfold aligned in *. rewrite H in *. cbn [negb orb padd pb po] in *. apply N.eqb_eq in E1. apply N.eqb_eq in E2.
  change (N.of_nat 8) with 8 in *. lia.
Qed.
Lemma pu_loadn_al {b L} cf n p : pu b L (loadn cf n p) (fun _ => aligned cf p n = true).
Proof.
  unfold loadn. destruct (aligned cf p n); [|apply pu_fail]. apply pu_bind with (R := any1); [apply pu_emit|intros].
  eapply pu_weaken; [apply pu_loads_|]. auto.
Qed.
Lemma pu_lo16 {b L} cf p : pu b L (load_lo16 cf p) any1.
Proof.
  unfold load_lo16. destruct (aligned cf p 8); [|apply pu_fail]. apply pu_bind with (R := any1); [apply pu_emit|]. intros _ _ m t H1 H2. cbn [smem].
  destruct (inside m _); [|exact Logic.I]. pose proof (@pu_loads_ b L 2 p m t H1 H2) as H. destruct (loads_ 2 p (St m t)); auto. unfold any1. intuition.
Qed.
Lemma pu_src_al {b L} cf p : pu b L (k64_load_src cf p) (fun _ => aligned cf p 8 = true).
Proof.
  unfold k64_load_src. eapply pu_bind; [apply pu_loadn_al|]. intros x Hx. rewrite padd0 in Hx.
  apply pu_bind with (R := any1); [pu_auto|intros]. apply pu_bind with (R := any1); [apply pu_lo16|intros]. now apply pu_ret.
Qed.

Section K.
  Variables (scr : st -> list N) (R : krounds) (cf : cfg).
  Hypothesis Hs : strict cf = true.
  Notation o := (k64_ops scr).

  Lemma pu_k64_permute {b L} r s : pu b L (permute o r s) any1.
  Proof. apply (pu_permute o cf (k64_pu scr cf)). Qed.
  Lemma pu_k64_store {b L} s i n p : pu b L (k64_store cf s i n p) any1.
  Proof. apply pu_store_lanes. Qed.

  Lemma pu_k64_absorb {b L} s src len : len < 2 ^ 64 -> pu b L (KIsap.ABSORB_MAC o R cf s src len) any1.
  Proof. intros H. eapply pu_weaken; [now apply (pu_absorb_k o R cf (k64_pu scr cf))|]. intros. exact Logic.I. Qed.
  Lemma pu_k64_absorb_mis {b L} s src len : len < 2 ^ 64 -> 36 <= len -> pu b L (KIsap.ABSORB_MAC o R cf s src len) (fun _ => False).
  Proof.
    intros Hl H36. unfold KIsap.ABSORB_MAC.
    set (n := N.to_nat ((len - 1) / 18)).
    assert (Hn : N.of_nat n = (len - 1) / 18) by (unfold n; lia).
    pose proof (N.div_mod (len - 1) 18 ltac:(lia)) as Hd. pose proof (N.mod_lt (len - 1) 18 ltac:(lia)) as Hm.
    assert (Hq : (len - 1) / 18 <= len / 18) by (apply N.div_le_mono; lia).
    eapply pu_bind.
    - apply (pu_while0 (fun k (st : list N * N * N) => snd (fst st) = 18 * N.of_nat k /\ snd st = len - 18 * N.of_nat k /\ 18 * N.of_nat k <= len /\
                        forall j, (j < k)%nat -> aligned cf (padd src (18 * N.of_nat j)) 8 = true) _ _ n); [| |lia|].
      + intros k [[s' i] r] Hk (_ & E & _). cbn [snd] in *. subst r. destruct (N.ltb_spec 18 (len - 18 * N.of_nat k)); destruct (Nat.ltb_spec k n); lia.
      + intros k [[s' i] r] Hk (E1 & E2 & E3 & E4). cbn [fst snd] in *. subst i r. unfold KIsap.absorb_full.
        eapply pu_bind; [apply pu_src_al|]. intros v Hv. eapply pu_bind; [apply pu_k64_permute|]. intros s1 _. apply pu_ret.
        cbn [fst snd]. split; [|split; [|split]].
        * unfold u64. rewrite N.mod_small; lia.
        * rewrite sub64_small; lia.
        * lia.
        * intros j Hj. destruct (Nat.eq_dec j k) as [->|]; [exact Hv|]. apply E4. lia.
      + cbn [fst snd]. split; [|split; [|split]]; lia.
    - intros [[s1 i] r] (E1 & E2 & E3 & E4). cbn [fst snd] in *. subst i.
      assert (H0 : aligned cf src 8 = true) by (rewrite <- (padd0 src); apply (E4 0%nat); lia).
      destruct (Nat.le_gt_cases 2 n) as [Hn2|Hn2].
      + exfalso. apply (two_loads cf src Hs H0). apply (E4 1%nat). lia.
      + replace (r =? 18) with true by lia. unfold if_. eapply pu_bind; [apply pu_branch|]. intros y ->.
        eapply pu_bind; [apply pu_src_al|]. intros v Hv. exfalso. apply (two_loads cf src Hs H0).
        replace (18 * N.of_nat n) with 18 in Hv by lia. exact Hv.
  Qed.

  Lemma pu_k64_rk {b L} k iv y ylen out outlen : pu b L (KIsap.isap_rk o R cf k iv y ylen out outlen) any1.
  Proof.
    unfold KIsap.isap_rk, KX, BX, init. cbn [k_init k64_ops].
    do 3 (apply pu_bind with (R := any1); [pu_auto|intros]).
    apply pu_bind with (R := any1); [apply pu_k64_permute|intros].
    apply pu_bind with (R := any1).
    { apply pu_for_any. intros. apply pu_bind with (R := any1); [pu_auto|intros]. apply pu_k64_permute. }
    intros. apply pu_bind with (R := any1); [pu_auto|intros]. apply pu_bind with (R := any1); [apply pu_k64_permute|intros].
    cbn [k_out k64_ops]. unfold k64_out. apply pu_bind with (R := any1); [apply pu_k64_store|intros].
    apply pu_if; intros; [apply pu_k64_store|now apply pu_ret].
  Qed.

  Lemma pu_store_lanes_mis {b L} w ws p (Q : unit -> Prop) : aligned cf p 2 = false -> pu b L (RefIsap.store_lanes cf (w :: ws) p) Q.
  Proof. intros H. cbn [RefIsap.store_lanes]. apply pu_bind_false, pu_store_mis. now rewrite word_le_length. Qed.

  (* isap_mac is undefined if there is much to authenticate, or the tag is at an odd address. *)
  Lemma pu_k64_mac {b L} k npub ad adlen c n tag : adlen < 2 ^ 64 -> n < 2 ^ 64 -> 36 <= adlen \/ 36 <= n ->
    pu b L (KIsap.isap_mac o R cf k npub ad adlen c n tag) (fun _ => False).
  Proof.
    intros La Ln H. unfold KIsap.isap_mac, HX, init, iv1_pair. cbn [k_init k64_ops].
    do 6 (apply pu_bind with (R := any1); [pu_auto|intros]).
    apply pu_bind with (R := any1); [apply pu_k64_permute|intros].
    destruct H as [H|H].
    - apply pu_bind_false. now apply pu_k64_absorb_mis.
    - apply pu_bind with (R := any1); [now apply pu_k64_absorb|intros]. apply pu_bind_false. now apply pu_k64_absorb_mis.
  Qed.
  Hypothesis Hscr : scr_ok scr.
  Lemma pu_k64_permute_len {b L} r s : pu b L (permute o r s) (fun s' => length s' = 50%nat).
  Proof.
    unfold permute. apply pu_bind with (R := any1); [apply pu_emit|]. intros _ _ m t H1 H2. cbn [k_perm k64_ops smem]. split; auto. split; auto.
    unfold k64_perm. destruct (Hscr (St m t)) as [H61 _].
    assert (E : length (firstn 25 (run (k64_rounds r) (map le_word (chunks 2 s) ++ scr (St m t)))) = 25%nat)
      by (rewrite firstn_length, run_length, app_length, H61; lia).
    set (l := firstn 25 _) in *. clearbody l. do 25 (destruct l as [|? l]; [discriminate|]). destruct l; [reflexivity|discriminate].
  Qed.
  Lemma pu_k64_mac_odd {b L} k npub ad adlen c n tag : adlen < 2 ^ 64 -> n < 2 ^ 64 -> aligned cf tag 2 = false ->
    pu b L (KIsap.isap_mac o R cf k npub ad adlen c n tag) (fun _ => False).
  Proof.
    intros La Ln H. unfold KIsap.isap_mac, HX, init, iv1_pair. cbn [k_init k64_ops].
    do 6 (apply pu_bind with (R := any1); [pu_auto|intros]).
    apply pu_bind with (R := any1); [apply pu_k64_permute|intros].
    do 2 (apply pu_bind with (R := any1); [now apply pu_k64_absorb|intros]).
    apply pu_with_block. intros y. cbn [k_store16 k_load16 k64_ops].
    apply pu_bind with (R := any1); [apply pu_k64_store|intros]. apply pu_bind with (R := any1); [apply pu_k64_rk|intros].
    apply pu_bind with (R := any1); [pu_auto|intros].
    eapply pu_bind; [apply pu_k64_permute_len|]. intros s Hl. unfold k64_store.
    destruct s as [|x0 [|x1 s]]; [discriminate Hl|discriminate Hl|].
    cbn [chunks map skipn firstn]. apply pu_store_lanes_mis. change (2 * N.of_nat 0) with 0. now rewrite padd0.
  Qed.
  Lemma pu_k64_enc {b L} k npub m mlen c : mlen < 2 ^ 64 -> pu b L (KIsap.isap_enc o R cf k npub m mlen c) any1.
  Proof.
    intros Hl. unfold KIsap.isap_enc, EX, init. cbn [k_init k64_ops]. apply pu_with_block. intros sp.
    apply pu_bind with (R := any1); [apply pu_k64_rk|intros].
    do 3 (apply pu_bind with (R := any1); [pu_auto|intros]).
    apply pu_bind with (R := any1); [apply pu_k64_permute|intros].
    assert (Hsq : forall s i, pu b L (squeeze_lane o cf s m c i) any1).
    { intros s i. unfold squeeze_lane. cbn [k_load_m k64_ops]. unfold k64_load_m. apply pu_bind with (R := any1); [pu_auto|intros]. cbv zeta. pu_auto. }
    apply pu_bind with (R := any1).
    - set (n := N.to_nat ((mlen - 1) / 18)).
      assert (Hn : N.of_nat n = (mlen - 1) / 18) by (unfold n; lia).
      pose proof (N.div_mod (mlen - 1) 18 ltac:(lia)) as Hd. pose proof (N.mod_lt (mlen - 1) 18 ltac:(lia)) as Hm.
      assert (Hq : (mlen - 1) / 18 <= mlen / 18) by (apply N.div_le_mono; lia).
      eapply pu_weaken; [|intros; exact Logic.I].
      apply (pu_while0 (fun k (st : list N * N * N) => snd st = mlen - 18 * N.of_nat k /\ 18 * N.of_nat k <= mlen) _ _ n); [| |lia|].
      + intros j [[s' i] r] Hk (E & _). cbn [snd] in *. subst r. destruct (N.ltb_spec 18 (mlen - 18 * N.of_nat j)); destruct (Nat.ltb_spec j n); lia.
      + intros j [[s' i] r] Hk (E & E2). cbn [fst snd] in *. subst r. unfold enc_full.
        apply pu_bind with (R := any1); [apply Hsq|intros]. apply pu_bind with (R := any1); [apply pu_k64_permute|intros].
        apply pu_ret. cbn [snd]. rewrite sub64_small; lia.
      + cbn [snd]. lia.
    - intros [[s1 i] r] _. apply pu_if; intros _; [apply Hsq|]. apply pu_bind with (R := any1); [|intros; now apply pu_ret].
      apply pu_for_any. intros. pu_auto.
  Qed.
End K.
