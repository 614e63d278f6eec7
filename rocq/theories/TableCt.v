(* Traces of every implementation in the table. Proofs only. *)
From Verif Require Import Base Prog SpecPerm Words Mem Vocab Vocab2 VocabK MemProof RefLib Sponge RefProof RefAead SpecFacts Api ApiProof ExtProof ApiProps.
From Verif Require Import OptPerm OptRep OptLanes OptPermProof OptIsap OptProof OptImpl OptEx A128Perm A128PermProof A128 A128Proof A128Impl KIsap KIsapProof K64Perm K64PermProof KAvxPerm KAvxProof K64Impl KAvxImpl
  KArmPerm KArm KArmProof KArmImpl AvxA AvxAProof AvxAImpl Table TableProof ExLib ExTrace PropsK64.
From Verif Require Import Trace RefTrace RefTrace2 Ct OptCt ApiCt A128Ct KCt KArmCt AvxACt.
From Verif Require Spec RefIsap ApiCode.
Import Spec(i_sz, i_rate, i_sH, i_sB, i_sE, i_sK, i_perm).
Open Scope N_scope.

Notation both_traced v cf cs ex X :=
  (enc_traced cf cs ex X (fun a n => calls_enc (v_inst v) n ++ calls_mac (v_inst v) a n) /\
   dec_traced cf cs ex X (calls_mac (v_inst v)) (calls_enc (v_inst v))).

Lemma div_up n r : (0 < r)%nat -> (n + r - 1 = n + (r - 1))%nat.
Proof. lia. Qed.

(* Eight bytes per block: the lists of the proofs are those of Vocab.v. *)
Lemma calls_A128A_mac x n : calls_mac (v_inst A128A) x n = repeat 12 (x / 8 + n / 8 + 3) ++ rk1 ++ [12].
Proof. reflexivity. Qed.
Lemma calls_A128A_enc n : (0 < n)%nat -> calls_enc (v_inst A128A) n = rk1 ++ repeat 6 ((n + 7) / 8).
Proof. intros H. unfold calls_enc. replace (n =? 0)%nat with false by lia. cbn [v_inst Spec.ISAP_A_128A i_rate]. now rewrite div_up by lia. Qed.
Lemma calls_A128_mac x n : calls_mac (v_inst A128) x n = repeat 12 (x / 8 + n / 8 + 3) ++ rk12 ++ [12].
Proof. reflexivity. Qed.
Lemma calls_A128_enc n : (0 < n)%nat -> calls_enc (v_inst A128) n = rk12 ++ repeat 12 ((n + 7) / 8).
Proof. intros H. unfold calls_enc. replace (n =? 0)%nat with false by lia. cbn [v_inst Spec.ISAP_A_128 i_rate]. now rewrite div_up by lia. Qed.
Notation rkK v := (krK (k_rounds v) :: repeat (krB (k_rounds v)) 127 ++ [krK (k_rounds v)]).
Lemma calls_K_mac v x n : kv v ->
  calls_mac (v_inst v) x n = repeat (krH (k_rounds v)) (x / 18 + n / 18 + 3) ++ rkK v ++ [krH (k_rounds v)].
Proof. intros [-> | ->]; reflexivity. Qed.
Lemma calls_K_enc v n : kv v -> (0 < n)%nat ->
  calls_enc (v_inst v) n = rkK v ++ repeat (krE (k_rounds v)) ((n + 17) / 18).
Proof.
  intros H H0. unfold calls_enc. replace (n =? 0)%nat with false by lia.
  destruct H as [-> | ->]; cbn [v_inst Spec.ISAP_K_128A Spec.ISAP_K_128 i_rate]; now rewrite div_up by lia.
Qed.

(* ---- the reference ---- *)
Lemma ref_traced v cf : both_traced v cf (ref_consts (v_macros v)) (loc_ext (v_loc v cf)) (ref_impl v cf).
Proof.
  split.
  - intros mm mm' c clen m ad npub k K Nn A T K' Nn' A' T' L L' V V' EA ET Hlay t.
    destruct (v_enc_trace v cf mm mm' c clen m ad npub k K Nn A T K' Nn' A' T' L V V' EA ET Hlay t) as (s & s' & E1 & E2 & E).
    destruct (v_enc_calls v cf mm c clen m ad npub k K Nn A T L V t) as (s1 & F1 & F2).
    rewrite E1 in F1. injection F1 as <-. exists s, s'. auto.
  - intros mm mm' m mlen c ad npub k K Nn A Y K' Nn' A' Y' L L' V V' EA EY Hlay t.
    destruct (v_dec_trace v cf mm mm' m mlen c ad npub k K Nn A Y K' Nn' A' Y' L V V' EA EY Hlay t)
      as (r & s & r' & s' & t0 & u & u' & E1 & E2 & E3 & E4 & U1 & U2 & U3).
    destruct (v_dec_calls v cf mm m mlen c ad npub k K Nn A Y L V t) as (r1 & s1 & F1 & F2).
    rewrite E1 in F1. injection F1 as <- <-. exists r, s, r', s', t0, u, u'. repeat (split; [assumption|]). exact F2.
Qed.

(* ---- isapa128av20/opt_64 and its relatives ---- *)
Lemma opt_traced a cf junk ex : In a fam_opt -> length junk = 5%nat -> (forall i, (i < 4)%nat -> al8 cf (P i 0)) ->
  impl_ok_if (v_inst A128A) cf opt_consts ex (opt_impl a cf junk) ->
  (forall mm k npub ad x p q n, ex mm k npub ad x p q n -> al8 cf k /\ al8 cf npub /\ al8 cf ad /\ al8 cf p /\ al8 cf q) ->
  both_traced A128A cf opt_consts ex (opt_impl a cf junk).
Proof.
  intros Ha Hj Hc HX Hex. destruct (fam_ok a Ha) as [f Hf].
  apply (api_traced A128A cf opt_consts (al8 cf) (fun p _ => al8 cf p) no_cond (2 ^ 64) (fun n => n)
    (OptIsap.isap_enc a cf junk) (OptIsap.isap_mac a cf)).
  - refine (opt_enc_ok f a rounds_used cf Hf _ _ _ Hc junk Hj); cbn; auto.
  - refine (mac_l_s A128A opt_consts (al8 cf) no_cond (2 ^ 64) _ _). refine (opt_mac_ok f a rounds_used cf Hf _ _ Hc); cbn; auto.
  - exact opt_consts_ne.
  - intros n. lia.
  - intros k npub ad x c n tag G1 G2. rewrite calls_A128A_mac. now apply OptCt.ct_isap_mac.
  - intros k npub m n c G H0. rewrite calls_A128A_enc by exact H0. now apply OptCt.ct_isap_enc.
  - exact HX.
  - intros mm k npub ad x p q n Hx Gx Gn Rad. destruct (Hex _ _ _ _ _ _ _ _ Hx) as (H1 & H2 & H3 & H4 & H5).
    split; [exact (locs_any mm)|]. auto 10.
Qed.

(* ---- isapa128v20 ---- *)
Lemma a64_traced UL cf ex : UL <= 64 -> strict cf = false -> impl_ok_if (v_inst A128) cf cs128 ex (impl_a128_64 UL cf) ->
  (forall mm k npub ad x p q n, ex mm k npub ad x p q n -> N.of_nat x < 2 ^ 64 -> N.of_nat n < 2 ^ 64 -> N.of_nat x < 2 ^ UL /\ N.of_nat n < 2 ^ UL) ->
  both_traced A128 cf cs128 ex (impl_a128_64 UL cf).
Proof.
  intros HU Hs HX Hex.
  apply (api_traced A128 cf cs12 (fun _ => True) (fun _ _ => True) no_cond (2 ^ UL) (fun n => n) (isap_enc_64 a128_64 UL cf) (isap_mac_64 a128_64 UL cf)).
  - now apply a128_64_enc.
  - refine (mac_l_s A128 cs12 (fun _ => True) no_cond (2 ^ UL) _ _). now apply a128_64_mac.
  - exact cs12_ne.
  - intros n. lia.
  - intros k npub ad x c n tag G1 G2. rewrite calls_A128_mac. now apply ct_isap_mac_64.
  - intros k npub m n c G H0. rewrite calls_A128_enc by exact H0. apply ct_isap_enc_64; auto.
    apply N.lt_le_trans with (2 ^ UL); auto. apply N.pow_le_mono_r; lia.
  - exact HX.
  - intros mm k npub ad x p q n Hx Gx Gn Rad. destruct (Hex _ _ _ _ _ _ _ _ Hx Gx Gn) as (H1 & H2).
    split; [exact (locs_any mm)|]. auto 10.
Qed.
Lemma a32_traced a u cf : ap_ok f_bi32 a rounds12 -> ap_ok f_bi32 u rounds12 -> strict cf = false ->
  impl_ok_if (v_inst A128) cf cs128 any_call (api_aead cf (isap_enc_32 a u cf) (isap_mac_32 a u cf)) ->
  both_traced A128 cf cs128 any_call (api_aead cf (isap_enc_32 a u cf) (isap_mac_32 a u cf)).
Proof.
  intros Ha Hu Hs HX.
  apply (api_traced A128 cf cs12 (fun _ => True) (fun _ _ => True) no_cond (2 ^ 64) (fun n => n) (isap_enc_32 a u cf) (isap_mac_32 a u cf)).
  - exact (enc32_ok f_bi32 a u rounds12 rounds12 cf Ha Hu in12 in12 Hs).
  - refine (mac_l_s A128 cs12 (fun _ => True) no_cond (2 ^ 64) _ _). exact (mac32_ok f_bi32 a u rounds12 rounds12 cf Ha Hu in12 in12 Hs).
  - exact cs12_ne.
  - intros n. lia.
  - intros k npub ad x c n tag G1 G2. rewrite calls_A128_mac. now apply ct_isap_mac_32.
  - intros k npub m n c G H0. rewrite calls_A128_enc by exact H0. now apply ct_isap_enc_32.
  - exact HX.
  - intros mm k npub ad x p q n Hx Gx Gn Rad. split; [exact (locs_any mm)|]. auto 10.
Qed.

(* ---- the Keccak instances ---- *)
Lemma k64_traced v scr cf : kv v -> scr_ok scr -> strict cf = false -> both_traced v cf (csK v) six_more (impl_k64 v scr cf).
Proof.
  intros Hv Hscr Hs.
  apply (api_traced v cf (csK v) (fun _ => True) (fun _ _ => True) no_cond (2 ^ 64) (slk 24)
    (KIsap.isap_enc (k64_ops scr) (k_rounds v) cf) (KIsap.isap_mac (k64_ops scr) (k_rounds v) cf)).
  - now apply k64_enc.
  - now apply k64_mac.
  - now apply k_ne.
  - exact slk24.
  - intros k npub ad x c n tag G1 G2. rewrite calls_K_mac by exact Hv. now apply (KCt.ct_isap_mac _ _ _ 50 (k64_ops_ct scr cf)).
  - intros k npub m n c G H0. rewrite calls_K_enc by auto. now apply (KCt.ct_isap_enc _ _ _ 50 (k64_ops_ct scr cf)).
  - now apply k64_correct.
  - intros mm k npub ad x p q n Hx Gx Gn Rad. split; [exact (locs_any mm)|]. do 7 (split; [auto|]).
    unfold slk. destruct (Nat.ltb_spec x 18) as [H|H]; auto. destruct Hx as [Hx|Hx]; [lia|].
    intros i Hi. destruct (Nat.lt_ge_cases i x); [now apply Rad|]. apply Hx. lia.
Qed.
Lemma kavx_traced junk scr cf : junk_ok junk -> vscr_ok scr -> strict cf = false ->
  both_traced K128A cf (csK K128A) any_call (impl_kavx junk scr cf).
Proof.
  intros Hj Hscr Hs. assert (Hv : kv K128A) by now right. destruct (k_inst K128A Hv) as (Hsz & Hra & Hp).
  destruct (k_rnd K128A k64_r Hv) as (HH & HB & HE & HK); try (unfold k64_r; tauto).
  pose proof (kavx_ops_ok junk scr cf Hj Hscr) as Ho.
  apply (api_traced K128A cf (csK K128A) (fun _ => True) (fun _ _ => True) no_cond (2 ^ 64) (slk 18)
    (KIsap.isap_enc (kavx junk scr) (k_rounds K128A) cf) (KIsap.isap_mac (kavx junk scr) (k_rounds K128A) cf)); try rewrite (k_consts K128A Hv).
  - exact (enc_k_ok K128A (k_rounds K128A) 64 18 k64_r cf _ kavx_p Ho Hs Hsz Hra Hp HH HB HE HK (k_iv K128A Hv)).
  - exact (mac_k_ok K128A (k_rounds K128A) 64 18 k64_r cf _ kavx_p Ho Hs Hsz Hra Hp HH HB HE HK (k_iv K128A Hv)).
  - rewrite <- (k_consts K128A Hv). now apply k_ne.
  - intros n. rewrite slk18. lia.
  - intros k npub ad x c n tag G1 G2. rewrite calls_K_mac by exact Hv. now apply (KCt.ct_isap_mac _ _ _ 64 (kavx_ops_ct junk scr cf Hj)).
  - intros k npub m n c G H0. rewrite calls_K_enc by auto. now apply (KCt.ct_isap_enc _ _ _ 64 (kavx_ops_ct junk scr cf Hj)).
  - apply ioi_any. rewrite <- (k_consts K128A Hv). now apply kavx_correct.
  - intros mm k npub ad x p q n Hx Gx Gn Rad. split; [exact (locs_any mm)|]. do 7 (split; [auto|]). now rewrite slk18.
Qed.
Lemma karm_traced v f scr cf : kv v -> regs_ok scr -> both_traced v cf (csK v) (arm_call cf) (impl_karm v f scr cf).
Proof.
  intros Hv Hs.
  apply (api_traced v cf (csK v) (fun _ => True) (al2_long cf) (four_ok cf) (2 ^ 32) (fun n => n)
    (KArm.isap_enc (arm_code f) scr (k_rounds v) cf) (KArm.isap_mac (arm_code f) scr (k_rounds v) cf)).
  - now apply file_enc.
  - now apply file_mac.
  - now apply k_ne.
  - intros n. lia.
  - intros k npub ad x c n tag G1 G2. rewrite calls_K_mac by exact Hv. now apply KArmCt.ct_isap_mac.
  - intros k npub m n c G H0. rewrite calls_K_enc by auto. now apply KArmCt.ct_isap_enc.
  - now apply karm_correct.
  - intros mm k npub ad x p q n [[[L1 L2] Hl] (E1 & E2 & E3)] Gx Gn Rad. rewrite even_al2 in *. split; [exact Hl|]. auto 10.
Qed.

(* ---- isapa128av20/avx_512 ---- *)
Lemma avxa_traced UL cf : UL <= 64 -> strict cf = false ->
  enc_traced cf csA (avx_lens UL) (impl_avxa UL cf) calls_mac_enc /\
  dec_traced cf csA (avx_lens UL) (impl_avxa UL cf) (calls_mac (v_inst A128A)) (calls_enc (v_inst A128A)).
Proof.
  intros HU Hs. split.
  - intros mm mm' c clen m ad npub k K Nn A T K' Nn' A' T' L L' V V' EA ET Hlay t.
    destruct (avxa_enc UL cf mm c clen m ad npub k K Nn A T Hs L V t) as (t1 & E1).
    destruct (avxa_enc UL cf mm' c clen m ad npub k K' Nn' A' T' Hs L' V' t) as (t2 & E2).
    rewrite <- EA, <- ET in E2. destruct L as (L1 & L2 & L3).
    destruct (ct_crypto_aead_encryptA UL cf c clen m (length T) ad (length A) npub k L1 L3 _ _ _ _ _ _ _ Hlay E1 E2) as (u & U1 & U2 & Pu & _).
    eexists _, _. split; [exact E1|]. split; [exact E2|]. rewrite U1, U2. split; auto. now rewrite perms_app, Pu.
  - assert (Xok : impl_ok_if (v_inst A128A) cf csA (avx_lens UL) (api_aead cf (isap_encA UL cf) (isap_macA UL cf))).
    { constructor.
      - intros mm c clen m ad npub k K Nn A T (L1 & L2 & L3) V.
        apply (api_enc_ok_l A128A cf csA (fun _ => True) no_cond (2 ^ UL)); auto using csA_ne.
        + apply encA_ok; auto using cal_lax.
        + exact (macA_gen cf UL (cal_lax cf Hs) Hs (fun x => x) (fun x => eq_refl)).
        + exact (locs_any mm).
      - exact (ioi_dec _ _ _ _ _ (avxa_correct UL cf HU Hs)). }
    refine (proj2 (api_traced A128A cf csA (fun _ => True) (fun _ _ => True) no_cond (2 ^ UL) (fun n => n)
      (isap_encA UL cf) (isap_macA UL cf) _ _ csA_ne _ _ _ (avx_lens UL) Xok _)).
    + apply encA_ok; auto using cal_lax.
    + refine (mac_l_s A128A csA (fun _ => True) no_cond (2 ^ UL) _ _). exact (macA_gen cf UL (cal_lax cf Hs) Hs (fun x => x) (fun x => eq_refl)).
    + intros n. lia.
    + intros k npub ad x c n tag G1 G2. rewrite calls_A128A_mac. now apply ct_isap_macA.
    + intros k npub m n c G H0. rewrite calls_A128A_enc by exact H0. apply ct_isap_encA; auto.
      apply N.lt_le_trans with (2 ^ UL); auto. apply N.pow_le_mono_r; lia.
    + intros mm k npub ad x p q n (L1 & L2 & L3) Gx Gn Rad. split; [exact (locs_any mm)|]. auto 10.
Qed.

(* ---- the table ---- *)
Lemma impl_of_traced v cf cs ex X : impl_of v cf cs ex X ->
  both_traced v cf cs ex X \/
  exists UL, v = A128A /\ X = impl_avxa UL cf /\ enc_traced cf cs ex X calls_mac_enc /\
    dec_traced cf cs ex X (calls_mac (v_inst v)) (calls_enc (v_inst v)).
Proof.
  intros [v' cf'|a junk cf' H1 H2 H3|a junk cf' H1 H2 H3|UL cf' H1 H2|cf' H|UL cf' H1 H2|cf' H|cf' H|v' scr cf' H1 H2 H3|junk scr cf' H1 H2 H3|v' f scr cf' H1 H2].
  - left. apply ref_traced.
  - left. apply opt_traced; auto.
    + now apply cal_lax.
    + now apply ioi_any, fam_correct.
    + intros. repeat split; now apply al8_lax.
  - left. apply opt_traced; auto. exact (impl_of_ok _ _ _ _ _ (io_opt_aligned a junk cf' H1 H2 H3)).
  - right. exists UL. split; [reflexivity|]. split; [reflexivity|]. now apply avxa_traced.
  - left. apply a64_traced; auto; [lia|]. now apply ioi_any, a128_64_correct.
  - left. apply a64_traced; auto. exact (impl_of_ok _ _ _ _ _ (io_a64_ul UL cf' H1 H2)).
  - left. apply a32_traced; auto using a128_32_ok. now apply ioi_any, a128_32_correct.
  - left. apply a32_traced; auto using a128_67_loop_ok, a128_67_urol_ok. now apply ioi_any, a128_67_correct.
  - left. now apply k64_traced.
  - left. now apply kavx_traced.
  - left. now apply karm_traced.
Qed.

(* ---- in the form of the statements ---- *)
Lemma table_enc_trace v cf cs ex X mm mm' c clen m ad npub k K Nn A T K' Nn' A' T' :
  impl_of v cf cs ex X ->
  ex mm k npub ad (length A) m c (length T) -> ex mm' k npub ad (length A') m c (length T') ->
  enc_valid cf cs mm c clen m ad npub k K Nn A T -> enc_valid cf cs mm' c clen m ad npub k K' Nn' A' T' ->
  length A = length A' -> length T = length T' -> layout mm mm' ->
  forall t, exists s s',
    a_enc X c clen m (N.of_nat (length T)) ad (N.of_nat (length A)) npub k (St mm t) = Ok 0%Z s /\
    a_enc X c clen m (N.of_nat (length T)) ad (N.of_nat (length A)) npub k (St mm' t) = Ok 0%Z s' /\
    strc s = strc s'.
Proof.
  intros HX L L' V V' EA ET Hl t.
  assert (H : exists ps, enc_traced cf cs ex X ps) by (destruct (impl_of_traced _ _ _ _ _ HX) as [[H _]|(UL & _ & _ & H & _)]; eauto).
  destruct H as (ps & H). destruct (H _ _ _ _ _ _ _ _ _ _ _ _ _ _ _ _ L L' V V' EA ET Hl t) as (s & s' & E1 & E2 & E3 & _). eauto.
Qed.
Lemma table_dec_traced v cf cs ex X : impl_of v cf cs ex X -> dec_traced cf cs ex X (calls_mac (v_inst v)) (calls_enc (v_inst v)).
Proof. intros HX. destruct (impl_of_traced _ _ _ _ _ HX) as [[_ H]|(UL & _ & _ & _ & H)]; exact H. Qed.
Lemma table_dec_trace v cf cs ex X mm mm' m mlen c ad npub k K Nn A Y K' Nn' A' Y' :
  impl_of v cf cs ex X ->
  ex mm k npub ad (length A) c m (length Y - 16)%nat -> ex mm' k npub ad (length A') c m (length Y' - 16)%nat ->
  dec_valid cf cs mm m mlen c ad npub k K Nn A Y -> dec_valid cf cs mm' m mlen c ad npub k K' Nn' A' Y' ->
  length A = length A' -> length Y = length Y' -> layout mm mm' ->
  forall t, exists r s r' s' t0 u u',
    a_dec X m mlen c (N.of_nat (length Y)) ad (N.of_nat (length A)) npub k (St mm t) = Ok r s /\
    a_dec X m mlen c (N.of_nat (length Y)) ad (N.of_nat (length A)) npub k (St mm' t) = Ok r' s' /\
    strc s = u ++ EBr (r =? 0)%Z :: t0 /\ strc s' = u' ++ EBr (r' =? 0)%Z :: t0 /\
    (r <> 0%Z -> u = []) /\ (r' <> 0%Z -> u' = []) /\ (r = r' -> u = u').
Proof.
  intros HX L L' V V' EA EY Hl t.
  destruct (table_dec_traced _ _ _ _ _ HX _ _ _ _ _ _ _ _ _ _ _ _ _ _ _ _ L L' V V' EA EY Hl t)
    as (r & s & r' & s' & t0 & u & u' & E1 & E2 & E3 & E4 & U1 & U2 & U3 & _).
  exists r, s, r', s', t0, u, u'. auto 10.
Qed.
Lemma table_dec_calls v cf cs ex X mm m mlen c ad npub k K Nn A Y :
  impl_of v cf cs ex X ->
  ex mm k npub ad (length A) c m (length Y - 16)%nat -> dec_valid cf cs mm m mlen c ad npub k K Nn A Y ->
  forall t, exists r s,
    a_dec X m mlen c (N.of_nat (length Y)) ad (N.of_nat (length A)) npub k (St mm t) = Ok r s /\
    perms (strc s) = perms t ++ calls_mac (v_inst v) (length A) (length Y - 16) ++
      (if (r =? 0)%Z then calls_enc (v_inst v) (length Y - 16) else []).
Proof.
  intros HX L V t.
  destruct (table_dec_traced _ _ _ _ _ HX _ _ _ _ _ _ _ _ _ _ _ _ _ _ _ _ L L V V eq_refl eq_refl (layout_refl mm) t)
    as (r & s & r' & s' & t0 & u & u' & E1 & E2 & E3 & E4 & U1 & U2 & U3 & P). eauto.
Qed.
Lemma table_enc_calls v cf cs ex X :
  impl_of v cf cs ex X ->
  (exists UL, v = A128A /\ X = impl_avxa UL cf) \/
  forall mm c clen m ad npub k K Nn A T,
    ex mm k npub ad (length A) m c (length T) -> enc_valid cf cs mm c clen m ad npub k K Nn A T ->
    forall t, exists s,
      a_enc X c clen m (N.of_nat (length T)) ad (N.of_nat (length A)) npub k (St mm t) = Ok 0%Z s /\
      perms (strc s) = perms t ++ calls_enc (v_inst v) (length T) ++ calls_mac (v_inst v) (length A) (length T).
Proof.
  intros HX. destruct (impl_of_traced _ _ _ _ _ HX) as [[H _]|(UL & H1 & H2 & _)]; [right|left; eauto].
  intros mm c clen m ad npub k K Nn A T L V t.
  destruct (H _ _ _ _ _ _ _ _ _ _ _ _ _ _ _ _ L L V V eq_refl eq_refl (layout_refl mm) t) as (s & s' & E1 & _ & _ & P). eauto.
Qed.
Lemma avx_enc_calls UL cf mm c clen m ad npub k K Nn A T :
  UL <= 64 -> strict cf = false ->
  N.of_nat (length A) < 2 ^ UL -> N.of_nat (length T) < 2 ^ UL -> N.of_nat (length T) < 2 ^ 63 -> enc_valid cf csA mm c clen m ad npub k K Nn A T ->
  forall t, exists s,
    a_enc (impl_avxa UL cf) c clen m (N.of_nat (length T)) ad (N.of_nat (length A)) npub k (St mm t) = Ok 0%Z s /\
    let rk := 12 :: repeat 1 127 ++ [12] in
    let it := Nat.max 1 ((length T + 15) / 16) in
    perms (strc s) = perms t ++ rk ++ repeat 12 (1 + length A / 8) ++ repeat 6 (2 * it) ++ repeat 12 (length T / 8 + 2 - it) ++ rk ++ [12].
Proof.
  intros HU Hs L1 L2 L3 V t.
  destruct (proj1 (avxa_traced UL cf HU Hs) _ _ _ _ _ _ _ _ _ _ _ _ _ _ _ _ (conj L1 (conj L2 L3)) (conj L1 (conj L2 L3)) V V eq_refl eq_refl (layout_refl mm) t)
    as (s & s' & E1 & _ & _ & P). exists s. split; [exact E1|exact P].
Qed.

(* ---- the examples ---- *)
Lemma two_calls_case v cf cs ex X : impl_of v cf cs ex X -> aligned cf (ex_ptr cs 5) 8 = true ->
  (forall K Nn A T n, length A = 24%nat ->
     ex (ex_mem cs K Nn A T n) (ex_ptr cs 0) (ex_ptr cs 1) (ex_ptr cs 2) 24%nat (ex_ptr cs 3) (ex_ptr cs 4) 19%nat) ->
  exists mm mm' dm dm' c clen m ad npub k Y Y' m1 m1',
  (ex mm k npub ad (length ex_A24) m c (length ex_T) /\ ex mm' k npub ad (length (rev ex_A24)) m c (length (rev ex_T)) /\
   enc_valid cf cs mm c clen m ad npub k ex_K ex_N ex_A24 ex_T /\
   enc_valid cf cs mm' c clen m ad npub k ex_N ex_K (rev ex_A24) (rev ex_T) /\ layout mm mm' /\
   ex_K <> ex_N /\ ex_A24 <> rev ex_A24 /\ ex_T <> rev ex_T) /\
  (ex dm k npub ad (length ex_A24) m c (length Y - 16)%nat /\ ex dm' k npub ad (length (rev ex_A24)) m c (length Y' - 16)%nat /\
   dec_valid cf cs dm c clen m ad npub k ex_K ex_N ex_A24 Y /\
   dec_valid cf cs dm' c clen m ad npub k ex_K ex_N (rev ex_A24) Y' /\ layout dm dm' /\ length Y = length Y' /\
   runs (a_dec X c clen m (N.of_nat (length Y)) ad (N.of_nat (length ex_A24)) npub k) dm 0%Z m1 /\
   runs (a_dec X c clen m (N.of_nat (length Y')) ad (N.of_nat (length (rev ex_A24))) npub k) dm' (-1)%Z m1').
Proof.
  intros HX Al He.
  assert (BA : bytes ex_A24) by (unfold ex_A24; repeat constructor; cbn; lia).
  set (I := v_inst v).
  set (Y := Spec.isap_encrypt I ex_K ex_N ex_A24 ex_T).
  assert (LY : length Y = 35%nat) by (unfold Y, I; rewrite v_encrypt_length; auto using ex_bytes_K, ex_bytes_N, ex_bytes_T).
  assert (BY : bytes Y) by (unfold Y, I; apply v_encrypt_bytes; auto using ex_bytes_K, ex_bytes_N, ex_bytes_T).
  set (C := Spec.isap_enc I ex_K ex_N ex_T). set (T := Spec.isap_mac I ex_K ex_N (rev ex_A24) C).
  assert (E : exists t, bytes t /\ length t = 16%nat /\ t <> T).
  { destruct (list_eq_dec N.eq_dec ex_K T) as [H|H].
    - exists ex_N. split; [apply ex_bytes_N|]. split; [reflexivity|]. rewrite <- H. discriminate.
    - exists ex_K. split; [apply ex_bytes_K|]. split; [reflexivity|exact H]. }
  destruct E as (t & Bt & Lt & Ht).
  assert (BC : bytes C) by (apply v_enc_bytes; auto using ex_bytes_K, ex_bytes_N, ex_bytes_T).
  assert (LC : length C = 19%nat) by (unfold C, I; rewrite v_enc_length; auto using ex_bytes_K, ex_bytes_N, ex_bytes_T).
  assert (LCt : length (C ++ t) = 35%nat) by (rewrite app_length; lia).
  assert (BR : bytes (rev ex_A24)) by now apply Forall_rev.
  assert (V1 : dec_valid cf cs (ex_mem cs ex_K ex_N ex_A24 Y 19) (ex_ptr cs 4) (ex_ptr cs 5) (ex_ptr cs 3) (ex_ptr cs 2) (ex_ptr cs 1) (ex_ptr cs 0)
     ex_K ex_N ex_A24 Y).
  { replace 19%nat with (length Y - 16)%nat by now rewrite LY.
    apply (ex_dec_valid cf cs ex_K ex_N ex_A24 Y); auto using ex_bytes_K, ex_bytes_N; rewrite ?LY; (reflexivity || lia). }
  assert (V2 : dec_valid cf cs (ex_mem cs ex_K ex_N (rev ex_A24) (C ++ t) 19) (ex_ptr cs 4) (ex_ptr cs 5) (ex_ptr cs 3) (ex_ptr cs 2) (ex_ptr cs 1) (ex_ptr cs 0)
     ex_K ex_N (rev ex_A24) (C ++ t)).
  { replace 19%nat with (length (C ++ t) - 16)%nat by now rewrite LCt.
    apply (ex_dec_valid cf cs ex_K ex_N (rev ex_A24) (C ++ t)); auto using ex_bytes_K, ex_bytes_N; rewrite ?LCt; try (reflexivity || lia).
    now apply bytes_app. }
  pose proof (impl_of_ok _ _ _ _ _ HX) as HI.
  assert (E1 : ex (ex_mem cs ex_K ex_N ex_A24 Y 19) (ex_ptr cs 0) (ex_ptr cs 1) (ex_ptr cs 2) (length ex_A24) (ex_ptr cs 3) (ex_ptr cs 4) (length Y - 16)%nat)
    by (rewrite LY; now apply He).
  assert (E2 : ex (ex_mem cs ex_K ex_N (rev ex_A24) (C ++ t) 19) (ex_ptr cs 0) (ex_ptr cs 1) (ex_ptr cs 2) (length (rev ex_A24)) (ex_ptr cs 3) (ex_ptr cs 4)
    (length (C ++ t) - 16)%nat) by (rewrite LCt; now apply He).
  assert (D1 : Spec.isap_decrypt I ex_K ex_N ex_A24 Y = Some ex_T) by (apply v_decrypt_encrypt; auto using ex_bytes_K, ex_bytes_N, ex_bytes_T).
  destruct (p_decrypts v cf cs ex X HI _ _ _ _ _ _ _ _ _ _ C t E2 Lt V2) as (r2 & m2 & R2 & Hr2 & Hr2' & _).
  exists (ex_mem cs ex_K ex_N ex_A24 ex_T 35), (ex_mem cs ex_N ex_K (rev ex_A24) (rev ex_T) 35),
    (ex_mem cs ex_K ex_N ex_A24 Y 19), (ex_mem cs ex_K ex_N (rev ex_A24) (C ++ t) 19),
    (ex_ptr cs 4), (ex_ptr cs 5), (ex_ptr cs 3), (ex_ptr cs 2), (ex_ptr cs 1), (ex_ptr cs 0), Y, (C ++ t).
  eexists. exists m2. split.
  - split; [now apply He|]. split; [now apply He|]. split; [|split; [|split; [now apply ex_layout|repeat split; discriminate]]].
    + apply (ex_enc_valid cf cs ex_K ex_N ex_A24 ex_T); auto using ex_bytes_K, ex_bytes_N, ex_bytes_T; reflexivity.
    + apply (ex_enc_valid cf cs ex_N ex_K (rev ex_A24) (rev ex_T)); auto using ex_bytes_K, ex_bytes_N; try reflexivity. apply Forall_rev, ex_bytes_T.
  - split; [exact E1|]. split; [exact E2|]. split; [exact V1|]. split; [exact V2|].
    split; [apply ex_layout; rewrite ?LY, ?LCt, ?rev_length; reflexivity|]. split; [now rewrite LY, LCt|]. split.
    + exact (di_accept v cf cs ex X HI _ _ _ _ _ _ _ _ _ _ _ E1 V1 ex_T D1).
    + replace (-1)%Z with r2; [exact R2|]. destruct Hr2 as [Hr2|Hr2]; auto. exfalso. apply Ht, Hr2', Hr2.
Qed.
