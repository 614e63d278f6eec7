(* Which calls with aligned buffers the optimised ISAP-A-128 implementations and isapk opt_64 handle on a machine that requires alignment.
   Proofs only. *)
From Verif Require Import Base Prog SpecPerm Words Mem Vocab Vocab2 VocabK VocabAlign MemProof RefLib RefProof RefAead Api ApiProof ExLib OptPerm OptIsap.
From Verif Require Import OptProof OptImpl OptEx.
From Verif Require Import A128Perm A128PermProof A128 A128Proof A128Impl K64Perm KIsap KIsapProof K64Impl ShortUb AlignEq AlignK MisUb.
From Verif Require Spec RefIsap ApiCode.
Open Scope N_scope.
Open Scope cm_scope.

Lemma all8_ptr cf mm ps p : all8 cf mm ps -> In p ps -> al8 cf p.
Proof. intros [_ H] Hp. rewrite Forall_forall in H. apply al8_base. now apply H. Qed.
Lemma all8_const cf mm ps : all8 cf mm ps -> forall i, (i < 3)%nat -> al8 cf (P i 0).
Proof. intros [H _] i Hi. apply al8_base. cbn [pb po]. rewrite N.add_0_r. apply H. now left. Qed.
Lemma all8_loc cf mm ps : all8 cf mm ps -> forall b, (length mm <= b)%nat -> al8 cf (P b 0).
Proof. intros [H _] b Hb. apply al8_base. cbn [pb po]. rewrite N.add_0_r. apply H. now right. Qed.

Lemma sim_runs {A} n (f g : M A) Q m a m1 : sim n f g Q -> (n <= length m)%nat -> runs g m a m1 -> runs f m a m1.
Proof. intros H Hn Hr t. destruct (H (St m t) Hn) as [-> _]. apply Hr. Qed.

Lemma ev_lx cf cs mm c clen m ad npub k K Nn A T : enc_valid cf cs mm c clen m ad npub k K Nn A T -> enc_valid (lx cf) cs mm c clen m ad npub k K Nn A T.
Proof. intros [? ? ? ? ? ? (? & ? & ?) ? ? ?]. constructor; auto. Qed.
Lemma dv_lx cf cs mm m mlen c ad npub k K Nn A Y : dec_valid cf cs mm m mlen c ad npub k K Nn A Y -> dec_valid (lx cf) cs mm m mlen c ad npub k K Nn A Y.
Proof. intros [? ? ? ? ? ? (? & ? & ?) ? ? ?]. constructor; auto. Qed.

(* ---------- isapa128v20 ---------- *)

Definition a128_impls (cf : cfg) : list aead := [impl_a128_64 64 cf; impl_a128_32 cf; impl_a128_67 cf].

Lemma sim_a128 cf mm X ps : all8 cf mm ps -> In X (a128_impls cf) ->
  exists X', impl_ok Spec.ISAP_A_128 (lx cf) cs128 no_cond X' /\
    (forall c clen m mlen ad adlen npub k, al8 cf k -> al8 cf npub -> al8 cf ad -> al8 cf m -> al8 cf c -> aligned cf clen 8 = true -> mlen mod 8 = 0 ->
       sim (length mm) (a_enc X c clen m mlen ad adlen npub k) (a_enc X' c clen m mlen ad adlen npub k) any1) /\
    (forall m mlen c clen ad adlen npub k, al8 cf k -> al8 cf npub -> al8 cf ad -> al8 cf m -> al8 cf c -> aligned cf mlen 8 = true ->
       sim (length mm) (a_dec X m mlen c clen ad adlen npub k) (a_dec X' m mlen c clen ad adlen npub k) any1).
Proof.
  intros H8 HX. pose proof (all8_const _ _ _ H8) as Hc. pose proof (all8_loc _ _ _ H8) as Hl.
  destruct HX as [<- | [<- | [<- | []]]].
  - exists (impl_a128_64 64 (lx cf)). split; [now apply a128_64_correct|]. split; intros; [apply sim_api_enc|apply sim_api_dec]; auto using sim_enc64, sim_mac64.
  - exists (impl_a128_32 (lx cf)). split; [now apply a128_32_correct|]. split; intros; [apply sim_api_enc|apply sim_api_dec]; auto using sim_enc32, sim_mac32.
  - exists (impl_a128_67 (lx cf)). split; [now apply a128_67_correct|]. split; intros; [apply sim_api_enc|apply sim_api_dec]; auto using sim_enc32, sim_mac32.
Qed.

Lemma a128_aligned_enc cf X mm c clen m ad npub k K Nn A T : In X (a128_impls cf) -> all8 cf mm [k; npub; ad; m; c] ->
  enc_valid cf cs128 mm c clen m ad npub k K Nn A T -> N.of_nat (length T) mod 8 = 0 ->
  runs (a_enc X c clen m (N.of_nat (length T)) ad (N.of_nat (length A)) npub k) mm 0%Z
       (putp (putp mm clen (word_le 8 (N.of_nat (length T) + 16))) c (Spec.isap_encrypt Spec.ISAP_A_128 K Nn A T)).
Proof.
  intros HX H8 V HT. destruct (sim_a128 cf mm X _ H8 HX) as (X' & Hok & Hs & _).
  pose proof (fun p => all8_ptr cf mm _ p H8) as Hp.
  eapply sim_runs; [apply Hs; auto; try (apply Hp; cbn; tauto); apply (ev_clen _ _ _ _ _ _ _ _ _ _ _ _ _ V)|auto|].
  apply (io_enc _ _ _ _ _ Hok); [apply locs_any|]. now apply ev_lx.
Qed.
Lemma a128_aligned_dec cf X mm m mlen c ad npub k K Nn A Y : In X (a128_impls cf) -> all8 cf mm [k; npub; ad; m; c] ->
  dec_valid cf cs128 mm m mlen c ad npub k K Nn A Y ->
  let m1 := putp mm mlen (word_le 8 (N.of_nat (length Y) - 16)) in
  runs (a_dec X m mlen c (N.of_nat (length Y)) ad (N.of_nat (length A)) npub k) mm
       (match Spec.isap_decrypt Spec.ISAP_A_128 K Nn A Y with Some _ => 0%Z | None => (-1)%Z end)
       (match Spec.isap_decrypt Spec.ISAP_A_128 K Nn A Y with Some T => putp m1 m T | None => m1 end).
Proof.
  intros HX H8 V. destruct (sim_a128 cf mm X _ H8 HX) as (X' & Hok & _ & Hs).
  pose proof (fun p => all8_ptr cf mm _ p H8) as Hp. cbv zeta.
  eapply sim_runs; [apply Hs; auto; try (apply Hp; cbn; tauto); apply (dv_mlen _ _ _ _ _ _ _ _ _ _ _ _ _ V)|auto|].
  apply (io_dec _ _ _ _ _ Hok); [apply locs_any|]. now apply dv_lx.
Qed.

Lemma room_mm (mm : mem) p n : room mm p n -> (0 < n)%nat -> (0 < length mm)%nat.
Proof.
  intros R Hn. specialize (R 0%nat Hn). destruct mm; [|cbn; lia]. unfold inside, blk in R. apply N.ltb_lt in R.
  destruct (pb (padd p (N.of_nat 0))); cbn in R; lia.
Qed.
Lemma ev_mm cf cs mm c clen m ad npub k K Nn A T : enc_valid cf cs mm c clen m ad npub k K Nn A T -> (0 < length mm)%nat.
Proof.
  intros V. destruct (ev_clen _ _ _ _ _ _ _ _ _ _ _ _ _ V) as [R _]. apply (room_mm _ _ _ R). lia.
Qed.

Lemma a128_tag_mis cf X mm c clen m ad npub k K Nn A T : In X (a128_impls cf) -> strict cf = true ->
  enc_valid cf cs128 mm c clen m ad npub k K Nn A T -> (addr cf c + N.of_nat (length T)) mod 8 <> 0 ->
  forall t, a_enc X c clen m (N.of_nat (length T)) ad (N.of_nat (length A)) npub k (St mm t) = UB.
Proof.
  intros HX Hs V Ha. pose proof (ev_mm _ _ _ _ _ _ _ _ _ _ _ _ _ V) as Hmm.
  destruct (ev_ad _ _ _ _ _ _ _ _ _ _ _ _ _ V) as [_ La]. destruct (ev_msg _ _ _ _ _ _ _ _ _ _ _ _ _ V) as [_ LT].
  assert (Hal : aligned cf (padd c (N.of_nat (length T))) 8 = false).
  { apply mis_addr; auto. unfold addr in *. cbn [padd pb po]. change (N.of_nat 8) with 8. now rewrite N.add_assoc. }
  destruct HX as [<- | [<- | [<- | []]]]; apply (api_tag_mis (fun p => aligned cf p 8)); auto; try lia.
  - intros b L k' npub' m' l c' Hl. now apply pu_enc64.
  - intros b L k' npub' ad' al c' n tag H1 H2 H3. apply pu_mac64; auto. lia.
  - intros b L k' npub' m' l c' Hl. now apply pu_enc32.
  - intros b L k' npub' ad' al c' n tag H1 H2 H3. now apply pu_mac32.
  - intros b L k' npub' m' l c' Hl. now apply pu_enc32.
  - intros b L k' npub' ad' al c' n tag H1 H2 H3. now apply pu_mac32.
Qed.

(* ---------- isapk128v20/opt_64 and isapk128av20/opt_64 ---------- *)

Lemma bind_eq {A B} (f : M A) (g g' : A -> M B) s : (forall a s', f s = Ok a s' -> g a s' = g' a s') -> bind f g s = bind f g' s.
Proof. intros H. unfold bind. destruct (f s); auto. Qed.

Section K64.
  Variables (v : variant) (scr : st -> list N) (cf : cfg).
  Hypothesis Hv : kv v.
  Hypothesis Hscr : scr_ok scr.
  Notation mac c := (KIsap.isap_mac (k64_ops scr) (k_rounds v) c).
  Notation enc c := (KIsap.isap_enc (k64_ops scr) (k_rounds v) c).

  (* With the tag at an odd address, the function of the other machine. *)
  Definition mac_even (k npub ad : ptr) (adlen : N) (c : ptr) (clen : N) (tag : ptr) : M unit :=
    if aligned cf tag 2 then mac cf k npub ad adlen c clen tag else mac (lx cf) k npub ad adlen c clen tag.
  Definition k8 (p : ptr) (n : nat) : Prop := al8 cf p /\ (n <= 35)%nat.
  Notation okb := (fun b => al8 cf (P b 0)).
  Hypothesis Hc : forall i, (i < 3)%nat -> al8 cf (P i 0).

  Lemma even_mac : mac_spec_g v (csK v) (al8 cf) k8 okb (2 ^ 64) (slk 24) mac_even.
  Proof.
    intros mm k npub ad c tag K Nn A C C1 Hl Bk Lk Bn Ln Ba Bc La Lc Rt Ct D1 D2 D3 D4 Pk Pn [Pa Ga] [Pc Gc] Ra Rc.
    assert (Hlx : runs (mac (lx cf) k npub ad (N.of_nat (length A)) c (N.of_nat (length C)) tag) mm tt (putp mm tag (Spec.isap_mac (v_inst v) K Nn A C))).
    { apply (k64_mac v scr (lx cf) Hv Hscr eq_refl); auto. intros b _. exact Logic.I. }
    unfold mac_even. destruct (aligned cf tag 2) eqn:E; [|exact Hlx].
    eapply sim_runs; [apply (sim_k64_mac scr (k_rounds v) cf Hc (length mm)); auto; lia|auto|exact Hlx].
  Qed.
  Lemma even_enc : enc_spec_g v (csK v) (al8 cf) k8 okb (2 ^ 64) (enc cf).
  Proof.
    intros mm k npub m c K Nn T C1 Hl Bk Lk Bn Ln Bm LT GT Rc Cc D1 D2 F Pk Pn [Pm Gm] [Pc Gc].
    eapply sim_runs; [apply (sim_k64_enc scr (k_rounds v) cf Hc (length mm)); auto; lia|auto|].
    apply (k64_enc v scr (lx cf) Hv Hscr eq_refl); auto. intros b _. exact Logic.I.
  Qed.

  Lemma k64_aligned_enc mm c clen m ad npub k K Nn A T : (forall b, (length mm <= b)%nat -> al8 cf (P b 0)) ->
    al8 cf k -> al8 cf npub -> al8 cf ad -> al8 cf m -> al8 cf c -> (length A <= 35)%nat -> (length T <= 35)%nat ->
    aligned cf (padd c (N.of_nat (length T))) 2 = true -> room mm ad (slk 24 (length A)) ->
    enc_valid cf (csK v) mm c clen m ad npub k K Nn A T ->
    runs (a_enc (impl_k64 v scr cf) c clen m (N.of_nat (length T)) ad (N.of_nat (length A)) npub k) mm 0%Z
         (putp (putp mm clen (word_le 8 (N.of_nat (length T) + 16))) c (Spec.isap_encrypt (v_inst v) K Nn A T)).
  Proof.
    intros Hl Hk Hn Ha Hm Hcc La LT Ht R V.
    assert (H : runs (a_enc (api_aead cf (enc cf) mac_even) c clen m (N.of_nat (length T)) ad (N.of_nat (length A)) npub k) mm 0%Z
         (putp (putp mm clen (word_le 8 (N.of_nat (length T) + 16))) c (Spec.isap_encrypt (v_inst v) K Nn A T))).
    { apply (api_enc_ok_g v cf (csK v) (al8 cf) k8 okb (2 ^ 64) (slk 24)); auto using even_enc, even_mac, k_ne, slk24; try (split; auto; lia); lia. }
    intros t. destruct (H t) as [t' E]. exists t'. rewrite <- E. cbn [impl_k64 api_aead a_enc]. unfold ApiCode.crypto_aead_encrypt.
    apply bind_eq. intros _ s1 _. apply bind_eq. intros _ s2 _. unfold mac_even. now rewrite Ht.
  Qed.
  Lemma k64_aligned_dec mm m mlen c ad npub k K Nn A Y : (forall b, (length mm <= b)%nat -> al8 cf (P b 0)) ->
    al8 cf k -> al8 cf npub -> al8 cf ad -> al8 cf m -> al8 cf c -> (length A <= 35)%nat -> (length Y - 16 <= 35)%nat -> room mm ad (slk 24 (length A)) ->
    dec_valid cf (csK v) mm m mlen c ad npub k K Nn A Y ->
    let m1 := putp mm mlen (word_le 8 (N.of_nat (length Y) - 16)) in
    runs (a_dec (impl_k64 v scr cf) m mlen c (N.of_nat (length Y)) ad (N.of_nat (length A)) npub k) mm
         (match Spec.isap_decrypt (v_inst v) K Nn A Y with Some _ => 0%Z | None => (-1)%Z end)
         (match Spec.isap_decrypt (v_inst v) K Nn A Y with Some T => putp m1 m T | None => m1 end).
  Proof.
    intros Hl Hk Hn Ha Hm Hcc La LY R V m1.
    assert (H : runs (a_dec (api_aead cf (enc cf) mac_even) m mlen c (N.of_nat (length Y)) ad (N.of_nat (length A)) npub k) mm
         (match Spec.isap_decrypt (v_inst v) K Nn A Y with Some _ => 0%Z | None => (-1)%Z end)
         (match Spec.isap_decrypt (v_inst v) K Nn A Y with Some T => putp m1 m T | None => m1 end)).
    { apply (api_dec_ok_g v cf (csK v) (al8 cf) k8 okb (2 ^ 64) (slk 24)); auto using even_enc, even_mac, k_ne, slk24; try (split; auto; lia); lia. }
    intros t. destruct (H t) as [t' E]. exists t'. rewrite <- E. cbn [impl_k64 api_aead a_dec]. unfold ApiCode.crypto_aead_decrypt.
    destruct (dv_mlen _ _ _ _ _ _ _ _ _ _ _ _ _ V) as (Rl & _ & Al).
    assert (Hst : runs (RefIsap.store_ull cf mlen (sub64 (N.of_nat (length Y)) RefIsap.ISAP_TAG_SZ)) mm tt
      (putp mm mlen (word_le 8 (sub64 (N.of_nat (length Y)) RefIsap.ISAP_TAG_SZ)))) by (apply runs_store_ull; auto).
    apply bind_eq. intros u s1 E1. destruct (Hst t) as [t1 E2]. rewrite E2 in E1. injection E1 as _ <-.
    unfold with_block. cbn [smem strc]. set (b := length (putp mm mlen _)).
    assert (Hb : aligned cf (P b 0) 2 = true) by (apply al8_2, Hl; unfold b; now rewrite putp_length).
    match goal with |- match ?x with _ => _ end = match ?y with _ => _ end => assert (Exy : x = y) end.
    { apply bind_eq. intros ml s3 _. unfold mac_even. rewrite Hb. reflexivity. }
    now rewrite Exy.
  Qed.

  (* undefined behaviour *)
  Hypothesis Hs : strict cf = true.
  Lemma k64_mis_enc mm c clen m ad npub k K Nn A T : enc_valid cf (csK v) mm c clen m ad npub k K Nn A T ->
    (36 <= length A)%nat \/ (36 <= length T)%nat \/ (addr cf c + N.of_nat (length T)) mod 2 <> 0 ->
    forall t, a_enc (impl_k64 v scr cf) c clen m (N.of_nat (length T)) ad (N.of_nat (length A)) npub k (St mm t) = UB.
  Proof.
    intros V H. pose proof (ev_mm _ _ _ _ _ _ _ _ _ _ _ _ _ V) as Hmm.
    destruct (ev_ad _ _ _ _ _ _ _ _ _ _ _ _ _ V) as [_ La]. destruct (ev_msg _ _ _ _ _ _ _ _ _ _ _ _ _ V) as [_ LT].
    cbn [impl_k64 api_aead a_enc]. unfold ApiCode.crypto_aead_encrypt. apply (pu_ub 0 (length (blk mm 0))); auto.
    apply pu_bind with (R := any1); [pu_auto|intros].
    apply pu_bind with (R := any1); [apply pu_if; intros _; [apply pu_k64_enc; lia|now apply pu_ret]|intros].
    apply pu_bind_false. destruct H as [H|[H|H]]; [apply pu_k64_mac; auto; lia|apply pu_k64_mac; auto; lia|].
    apply pu_k64_mac_odd; auto; [lia|]. apply mis_addr; auto. unfold addr in *. cbn [padd pb po]. change (N.of_nat 2) with 2. now rewrite N.add_assoc.
  Qed.
  Lemma k64_mis_dec mm m mlen c ad npub k K Nn A Y : dec_valid cf (csK v) mm m mlen c ad npub k K Nn A Y ->
    (36 <= length A)%nat \/ (36 <= length Y - 16)%nat ->
    forall t, a_dec (impl_k64 v scr cf) m mlen c (N.of_nat (length Y)) ad (N.of_nat (length A)) npub k (St mm t) = UB.
  Proof.
    intros V H. destruct (dv_mlen _ _ _ _ _ _ _ _ _ _ _ _ _ V) as (Rl & _ & Al).
    destruct (dv_ad _ _ _ _ _ _ _ _ _ _ _ _ _ V) as [_ La]. destruct (dv_ct _ _ _ _ _ _ _ _ _ _ _ _ _ V) as [_ [LY GY]].
    cbn [impl_k64 api_aead a_dec]. unfold ApiCode.crypto_aead_decrypt.
    replace (sub64 (N.of_nat (length Y)) RefIsap.ISAP_TAG_SZ) with (N.of_nat (length Y) - 16) by (rewrite sub64_small; unfold RefIsap.ISAP_TAG_SZ; lia).
    set (n := N.of_nat (length Y) - 16). assert (Hn : n < 2 ^ 64) by (unfold n; lia).
    eapply bind_ub2; [apply runs_store_ull; auto; exact Al|]. apply block_ub.
    eapply bind_ub2; [apply (runs_load_ull cf mlen n); auto; apply has_app, has_putp_same; now rewrite word_le_length|].
    intros t. apply bind_ub1.
    assert (Hmm : (0 < length mm)%nat) by (apply (room_mm _ _ _ Rl); lia).
    eapply (pu_ub 0); [|reflexivity|rewrite app_length, putp_length; lia].
    apply pu_k64_mac; auto. unfold n. lia.
  Qed.
End K64.

(* ---------- from addresses, and examples ---------- *)

Lemma k64_all8_enc v scr cf mm c clen m ad npub k K Nn A T : kv v -> scr_ok scr -> all8 cf mm [k; npub; ad; m; c] ->
  enc_valid cf (csK v) mm c clen m ad npub k K Nn A T -> six_more mm k npub ad (length A) m c (length T) ->
  (length A < 36)%nat -> (length T < 36)%nat -> N.of_nat (length T) mod 2 = 0 ->
  runs (a_enc (impl_k64 v scr cf) c clen m (N.of_nat (length T)) ad (N.of_nat (length A)) npub k) mm 0%Z
       (putp (putp mm clen (word_le 8 (N.of_nat (length T) + 16))) c (Spec.isap_encrypt (v_inst v) K Nn A T)).
Proof.
  intros Hv Hscr H8 V Hx LA LT HT. pose proof (fun p => all8_ptr cf mm _ p H8) as Hp.
  apply k64_aligned_enc; auto; try lia; try (apply Hp; cbn; tauto).
  - exact (all8_const _ _ _ H8).
  - exact (all8_loc _ _ _ H8).
  - apply al2_padd; [apply al8_2, Hp; cbn; tauto|exact HT].
  - apply six_slk; auto. apply (ev_ad _ _ _ _ _ _ _ _ _ _ _ _ _ V).
Qed.
Lemma k64_all8_dec v scr cf mm m mlen c ad npub k K Nn A Y : kv v -> scr_ok scr -> all8 cf mm [k; npub; ad; m; c] ->
  dec_valid cf (csK v) mm m mlen c ad npub k K Nn A Y -> six_more mm k npub ad (length A) c m (length Y - 16)%nat ->
  (length A < 36)%nat -> (length Y - 16 < 36)%nat ->
  let m1 := putp mm mlen (word_le 8 (N.of_nat (length Y) - 16)) in
  runs (a_dec (impl_k64 v scr cf) m mlen c (N.of_nat (length Y)) ad (N.of_nat (length A)) npub k) mm
       (match Spec.isap_decrypt (v_inst v) K Nn A Y with Some _ => 0%Z | None => (-1)%Z end)
       (match Spec.isap_decrypt (v_inst v) K Nn A Y with Some T => putp m1 m T | None => m1 end).
Proof.
  intros Hv Hscr H8 V Hx LA LY. pose proof (fun p => all8_ptr cf mm _ p H8) as Hp.
  apply k64_aligned_dec; auto; try lia; try (apply Hp; cbn; tauto).
  - exact (all8_const _ _ _ H8).
  - exact (all8_loc _ _ _ H8).
  - apply six_slk; auto. apply (dv_ad _ _ _ _ _ _ _ _ _ _ _ _ _ V).
Qed.

Lemma strict_all8 mm l : all8 strict_cf mm (map (fun i => P i 0) l).
Proof.
  assert (E : forall b, (64 * N.of_nat b) mod 8 = 0) by (intros b; lia).
  split; [intros b _; apply E|]. apply Forall_forall. intros p Hp. apply in_map_iff in Hp as (i & <- & _). unfold addr. cbn [strict_cf base pb po].
  rewrite N.add_0_r. apply E.
Qed.
Lemma strict_valid cs A T : bytes A -> bytes T -> N.of_nat (length A) < 2 ^ 64 -> N.of_nat (length T) + 16 < 2 ^ 64 ->
  all8 strict_cf (ex_mem cs ex_K ex_N A T (length T + 16)) [ex_ptr cs 0; ex_ptr cs 1; ex_ptr cs 2; ex_ptr cs 3; ex_ptr cs 4] /\
  enc_valid strict_cf cs (ex_mem cs ex_K ex_N A T (length T + 16)) (ex_ptr cs 4) (ex_ptr cs 5) (ex_ptr cs 3) (ex_ptr cs 2) (ex_ptr cs 1) (ex_ptr cs 0)
    ex_K ex_N A T.
Proof.
  intros. split; [apply (strict_all8 _ (map (fun i => (length cs + i)%nat) [0; 1; 2; 3; 4]%nat))|].
  apply (ex_enc_valid strict_cf cs ex_K ex_N A T); auto using ex_bytes_K, ex_bytes_N. apply al8_here. apply strict_al8.
Qed.
Lemma strict_dvalid cs A Y : bytes A -> bytes Y -> N.of_nat (length A) < 2 ^ 64 -> N.of_nat (length Y) < 2 ^ 64 -> (16 <= length Y)%nat ->
  all8 strict_cf (ex_mem cs ex_K ex_N A Y (length Y - 16)) [ex_ptr cs 0; ex_ptr cs 1; ex_ptr cs 2; ex_ptr cs 4; ex_ptr cs 3] /\
  dec_valid strict_cf cs (ex_mem cs ex_K ex_N A Y (length Y - 16)) (ex_ptr cs 4) (ex_ptr cs 5) (ex_ptr cs 3) (ex_ptr cs 2) (ex_ptr cs 1) (ex_ptr cs 0)
    ex_K ex_N A Y.
Proof.
  intros. split; [apply (strict_all8 _ (map (fun i => (length cs + i)%nat) [0; 1; 2; 4; 3]%nat))|].
  apply (ex_dec_valid strict_cf cs ex_K ex_N A Y); auto using ex_bytes_K, ex_bytes_N. apply al8_here. apply strict_al8.
Qed.

Definition ex_text (n : nat) : list N := map (fun i => N.of_nat i mod 256) (seq 1 n).
Lemma ex_text_bytes n : bytes (ex_text n).
Proof. apply Forall_forall. intros x H. apply in_map_iff in H as (i & <- & _). apply N.mod_lt. discriminate. Qed.
Lemma ex_text_length n : length (ex_text n) = n.
Proof. unfold ex_text. now rewrite map_length, seq_length. Qed.

Lemma a128_aligned_refuted : exists cf mm c clen m ad npub k K Nn A T, strict cf = true /\ all8 cf mm [k; npub; ad; m; c] /\
  enc_valid cf cs128 mm c clen m ad npub k K Nn A T /\
  forall X t, In X (a128_impls cf) -> a_enc X c clen m (N.of_nat (length T)) ad (N.of_nat (length A)) npub k (St mm t) = UB.
Proof.
  destruct (strict_valid cs128 ex_A ex_T ex_bytes_A ex_bytes_T eq_refl eq_refl) as [H8 V].
  exists strict_cf, (ex_mem cs128 ex_K ex_N ex_A ex_T 35), (ex_ptr cs128 4), (ex_ptr cs128 5), (ex_ptr cs128 3), (ex_ptr cs128 2), (ex_ptr cs128 1),
    (ex_ptr cs128 0), ex_K, ex_N, ex_A, ex_T. split; [reflexivity|]. split; [exact H8|]. split; [exact V|].
  intros X t HX. apply (a128_tag_mis _ _ _ _ _ _ _ _ _ _ _ _ _ HX eq_refl V). discriminate.
Qed.
Lemma k64_aligned_refuted v : kv v -> exists cf mm c clen m ad npub k K Nn A T, strict cf = true /\ all8 cf mm [k; npub; ad; m; c] /\
  enc_valid cf (csK v) mm c clen m ad npub k K Nn A T /\ six_more mm k npub ad (length A) m c (length T) /\
  forall scr t, scr_ok scr -> a_enc (impl_k64 v scr cf) c clen m (N.of_nat (length T)) ad (N.of_nat (length A)) npub k (St mm t) = UB.
Proof.
  intros Hv. set (T := ex_text 48).
  destruct (strict_valid (csK v) ex_A T ex_bytes_A (ex_text_bytes 48) eq_refl eq_refl) as [H8 V].
  exists strict_cf, (ex_mem (csK v) ex_K ex_N ex_A T 64), (ex_ptr (csK v) 4), (ex_ptr (csK v) 5), (ex_ptr (csK v) 3), (ex_ptr (csK v) 2), (ex_ptr (csK v) 1),
    (ex_ptr (csK v) 0), ex_K, ex_N, ex_A, T. split; [reflexivity|]. split; [exact H8|]. split; [exact V|]. split; [left; cbn; lia|].
  intros scr t Hscr. apply (k64_mis_enc v scr strict_cf Hscr eq_refl _ _ _ _ _ _ _ _ _ _ _ V). right; left. unfold T. rewrite ex_text_length. lia.
Qed.
