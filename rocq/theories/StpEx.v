(* The three STP implementations: theorems over the directories, and concrete calls. *)
From Verif Require Import Base Prog Poly SpecPerm Words Mem Vocab Vocab2 MemProof RefLib RefProof RefAead SpecFacts Api ApiProps ExLib.
From Verif Require Import OptPerm OptPermProof OptIsap OptLanes OptProof OptImpl OptEx OptStp StpProof.
From Verif Require Spec RefIsap.
Open Scope N_scope.
Open Scope cm_scope.

Notation IA := Spec.ISAP_A_128A.

Lemma lax_al cf : strict cf = false -> forall p, al8 cf p.
Proof. intros H p. now apply al8_lax. Qed.

Lemma in12 : In 12%nat rounds_stp. Proof. cbn; auto. Qed.
Lemma in1 : In 1%nat rounds_stp. Proof. cbn; auto. Qed.
Lemma in6 : In 6%nat rounds_stp. Proof. cbn; auto. Qed.
Lemma in7 : In 7%nat rounds_stp. Proof. cbn; auto. Qed.

Lemma fam_stp_enc a cf junk mm c clen m ad npub k K Nn A T : In a fam_stp -> strict cf = false -> length junk = 5%nat ->
  enc_valid cf opt_consts mm c clen m ad npub k K Nn A T ->
  apart mm S0 S1 [(k, 16); (npub, 16); (ad, length A); (m, length T); (c, length T + 16); (clen, 8)]%nat ->
  exists h0 h1, length h0 = 8%nat /\ length h1 = 8%nat /\
  runs (a_enc (stp_impl a cf junk) c clen m (N.of_nat (length T)) ad (N.of_nat (length A)) npub k) mm 0%Z
    (putp (putp (putp (putp mm clen (word_le 8 (N.of_nat (length T) + 16))) c (Spec.isap_encrypt IA K Nn A T)) S0 h0) S1 h1).
Proof.
  intros H Hs Hj. destruct (fam_stp_ok a H) as [f Hf].
  apply (stp_enc f a rounds_stp cf Hf in12 in1 in6 (lax_al cf Hs) junk Hj).
Qed.

Lemma fam_stp_dec a cf junk mm m mlen c ad npub k K Nn A Y b : In a fam_stp -> strict cf = false -> length junk = 5%nat ->
  (b = true <-> accepts K Nn A Y) -> dec_valid cf opt_consts mm m mlen c ad npub k K Nn A Y -> dec_apart mm m mlen c ad npub k A Y ->
  exists h0 h1, length h0 = 8%nat /\ length h1 = 8%nat /\
  runs (a_dec (stp_impl a cf junk) m mlen c (N.of_nat (length Y)) ad (N.of_nat (length A)) npub k) mm
    (if b then 0 else -1)%Z
    (let m2 := putp (putp (putp mm mlen (word_le 8 (N.of_nat (length Y) - 16))) S0 h0) S1 h1 in
     if b then putp m2 m (Spec.isap_enc IA K Nn (firstn (length Y - 16) Y)) else m2).
Proof.
  intros H Hs Hj Eb V Hap. destruct (fam_stp_ok a H) as [f Hf].
  exists (g0 f (mac_st Nn A (firstn (length Y - 16) Y))), (g1 f (mac_st Nn A (firstn (length Y - 16) Y))).
  split; [apply g0_length|]. split; [apply g1_length|].
  pose proof (stp_dec f a rounds_stp cf Hf in12 in1 in6 in7 (lax_al cf Hs) junk Hj mm m mlen c ad npub k K Nn A Y b Eb V Hap) as R.
  unfold dec_ret, dec_mem, put_globals in R. exact R.
Qed.

Lemma accepts_iff K Nn A C t : length t = 16%nat ->
  accepts K Nn A (C ++ t) <-> image t (mac_st Nn A C) = image (Spec.isap_mac IA K Nn A C) (mac_st Nn A C).
Proof.
  intros L. unfold accepts. rewrite app_length, L. replace (length C + 16 - 16)%nat with (length C) by lia.
  rewrite firstn_app, firstn_all, Nat.sub_diag, firstn_O, app_nil_r, skipn_app, skipn_all, Nat.sub_diag. cbn [skipn app].
  split; auto.
Qed.

Lemma accepts_genuine K Nn A T : length K = 16%nat -> bytes K -> length Nn = 16%nat -> bytes Nn -> bytes A -> bytes T ->
  accepts K Nn A (Spec.isap_encrypt IA K Nn A T).
Proof.
  intros LK BK LN BN BA BT.
  pose proof (v_enc_bytes A128A K Nn T LK LN BK BN BT) as Bc. change (v_inst A128A) with IA in Bc.
  pose proof (v_mac A128A K Nn A (Spec.isap_enc IA K Nn T) LK LN BK BN BA Bc) as [_ Lm]. change (v_inst A128A) with IA in Lm.
  unfold Spec.isap_encrypt. cbv zeta. now apply accepts_iff.
Qed.

(* Splitting a ciphertext of at least 16 bytes. *)
Lemma ct_split K Nn A T : length K = 16%nat -> bytes K -> length Nn = 16%nat -> bytes Nn -> bytes A -> bytes T ->
  length (Spec.isap_encrypt IA K Nn A T) = (length T + 16)%nat /\
  firstn (length (Spec.isap_encrypt IA K Nn A T) - 16) (Spec.isap_encrypt IA K Nn A T) = Spec.isap_enc IA K Nn T /\
  Spec.isap_enc IA K Nn (Spec.isap_enc IA K Nn T) = T.
Proof.
  intros LK BK LN BN BA BT.
  pose proof (v_enc_bytes A128A K Nn T LK LN BK BN BT) as Bc. change (v_inst A128A) with IA in Bc.
  pose proof (v_enc_length A128A K Nn T LK LN BK BN) as Lc. change (v_inst A128A) with IA in Lc.
  pose proof (v_mac A128A K Nn A (Spec.isap_enc IA K Nn T) LK LN BK BN BA Bc) as [_ Lm]. change (v_inst A128A) with IA in Lm.
  unfold Spec.isap_encrypt. cbv zeta.
  assert (L : length (Spec.isap_enc IA K Nn T ++ Spec.isap_mac IA K Nn A (Spec.isap_enc IA K Nn T)) = (length T + 16)%nat).
  { rewrite app_length. lia. }
  split; [exact L|]. rewrite L. replace (length T + 16 - 16)%nat with (length (Spec.isap_enc IA K Nn T)) by lia.
  rewrite firstn_app, firstn_all, Nat.sub_diag, firstn_O, app_nil_r. split; auto.
  apply (v_enc_invol A128A); auto.
Qed.

Lemma fam_stp_enc_out a cf junk mm c clen m ad npub k K Nn A T :
  In a fam_stp -> strict cf = false -> length junk = 5%nat ->
  enc_valid cf opt_consts mm c clen m ad npub k K Nn A T ->
  apart mm S0 S1 [(k, 16); (npub, 16); (ad, length A); (m, length T); (c, length T + 16); (clen, 8)]%nat ->
  exists m1,
    runs (a_enc (stp_impl a cf junk) c clen m (N.of_nat (length T)) ad (N.of_nat (length A)) npub k) mm 0%Z m1 /\
    has m1 c (Spec.isap_encrypt IA K Nn A T) /\ has m1 clen (word_le 8 (N.of_nat (length T) + 16)).
Proof.
  intros Ia Hs Hj V Hap.
  destruct (fam_stp_enc a cf junk mm c clen m ad npub k K Nn A T Ia Hs Hj V Hap) as (h0 & h1 & L0 & L1 & R).
  destruct Hap as (R0 & R1 & Hap).
  destruct V as [Vc [[Bk Hk] Lk] [[Bn Hn] Ln] [[Ba Had] La] [[Bt Ht] Lt] [Rc Pc] [Rl [Pl Al]]
    (D1 & D2 & D3 & D4 & D5) (D6 & D7 & D8) Hf].
  rewrite !Forall_cons_iff in Hap. cbn [fst snd] in Hap.
  destruct Hap as ((Ek & Ek') & (En & En') & (Ea & Ea') & (Em & Em') & (Ec & Ec') & (El & El') & _).
  destruct (ct_split K Nn A T Lk Bk Ln Bn Ba Bt) as (LC & EC & EI).
  set (CT := Spec.isap_encrypt IA K Nn A T) in *.
  eexists. split; [exact R|].
  set (m1 := putp mm clen (word_le 8 (N.of_nat (length T) + 16))) in *.
  assert (Hl8 : room mm clen (length (word_le 8 (N.of_nat (length T) + 16)))) by now rewrite word_le_length.
  assert (Q1 : forall q n, room mm q n -> room m1 q n) by (intros; now apply room_putp).
  assert (Rc1 : room m1 c (length CT)) by (rewrite LC; auto).
  assert (G0 : room (putp m1 c CT) S0 (length h0)) by (rewrite L0; apply room_putp; auto).
  assert (G1 : room (putp (putp m1 c CT) S0 h0) S1 (length h1)) by (rewrite L1; apply room_putp; auto; apply room_putp; auto).
  split.
  - apply has_putp_disj; auto; [|now rewrite L1, LC]. apply has_putp_disj; auto; [|now rewrite L0, LC]. now apply has_putp_same.
  - apply has_putp_disj; auto; [|now rewrite L1, word_le_length]. apply has_putp_disj; auto; [|now rewrite L0, word_le_length].
    apply has_putp_disj; auto; [now apply has_putp_same|]. rewrite LC, word_le_length. now apply disj_sym.
Qed.

Lemma fam_stp_dec_genuine b cf' junk' K Nn A T m2 mp mlen c' ad' npub' k' :
  In b fam_stp -> strict cf' = false -> length junk' = 5%nat -> bytes T ->
  dec_valid cf' opt_consts m2 mp mlen c' ad' npub' k' K Nn A (Spec.isap_encrypt IA K Nn A T) ->
  dec_apart m2 mp mlen c' ad' npub' k' A (Spec.isap_encrypt IA K Nn A T) ->
  exists m3,
    runs (a_dec (stp_impl b cf' junk') mp mlen c' (N.of_nat (length (Spec.isap_encrypt IA K Nn A T))) ad' (N.of_nat (length A)) npub' k') m2 0%Z m3 /\
    has m3 mp T /\ has m3 mlen (word_le 8 (N.of_nat (length T))).
Proof.
  intros Ib Hs' Hj' Bt V' Hap'.
  assert (W := V'). destruct W as [_ [[Bk _] Lk] [[Bn _] Ln] [[Ba _] _] _ _ _ _ _ _].
  destruct (ct_split K Nn A T Lk Bk Ln Bn Ba Bt) as (LC & EC & EI).
  pose proof (accepts_genuine K Nn A T Lk Bk Ln Bn Ba Bt) as Acc.
  set (CT := Spec.isap_encrypt IA K Nn A T) in *.
  destruct (fam_stp_dec b cf' junk' m2 mp mlen c' ad' npub' k' K Nn A CT true Ib Hs' Hj' (conj (fun _ => Acc) (fun _ => eq_refl)) V' Hap')
    as (i0 & i1 & M0 & M1 & R').
  eexists. split; [exact R'|]. cbv zeta. rewrite EC, EI. rewrite LC.
  replace (N.of_nat (length T + 16) - 16) with (N.of_nat (length T)) by lia.
  destruct Hap' as (R0' & R1' & Hap').
  destruct V' as [_ _ _ _ _ [Rm Pm] [Rl' [Pl' Al']] (_ & _ & _ & _ & D5') _ _].
  rewrite !Forall_cons_iff in Hap'. cbn [fst snd] in Hap'.
  destruct Hap' as (_ & _ & _ & _ & _ & (El2 & El2') & _).
  rewrite LC in Rm, D5'. replace (length T + 16 - 16)%nat with (length T) in * by lia.
  set (n1 := putp m2 mlen (word_le 8 (N.of_nat (length T)))).
  assert (Hl8' : room m2 mlen (length (word_le 8 (N.of_nat (length T))))) by now rewrite word_le_length.
  assert (U1 : forall q n, room m2 q n -> room n1 q n) by (intros; now apply room_putp).
  assert (G0' : room n1 S0 (length i0)) by (rewrite M0; auto).
  assert (G1' : room (putp n1 S0 i0) S1 (length i1)) by (rewrite M1; apply room_putp; auto).
  assert (Rm2 : room (putp (putp n1 S0 i0) S1 i1) mp (length T)) by (apply room_putp; auto; apply room_putp; auto).
  split; [now apply has_putp_same|].
  apply has_putp_disj; auto.
  - apply has_putp_disj; auto; [|now rewrite M1, word_le_length]. apply has_putp_disj; auto; [|now rewrite M0, word_le_length].
    now apply has_putp_same.
  - rewrite word_le_length. now apply disj_sym.
Qed.

Lemma fam_stp_roundtrip a b cf cf' junk junk' mm c clen m ad npub k K Nn A T :
  In a fam_stp -> In b fam_stp -> strict cf = false -> strict cf' = false -> length junk = 5%nat -> length junk' = 5%nat ->
  enc_valid cf opt_consts mm c clen m ad npub k K Nn A T ->
  apart mm S0 S1 [(k, 16); (npub, 16); (ad, length A); (m, length T); (c, length T + 16); (clen, 8)]%nat ->
  exists m1 CT,
    runs (a_enc (stp_impl a cf junk) c clen m (N.of_nat (length T)) ad (N.of_nat (length A)) npub k) mm 0%Z m1 /\
    length CT = (length T + 16)%nat /\ has m1 c CT /\ has m1 clen (word_le 8 (N.of_nat (length T) + 16)) /\
    forall m2 mp mlen c' ad' npub' k',
      dec_valid cf' opt_consts m2 mp mlen c' ad' npub' k' K Nn A CT -> dec_apart m2 mp mlen c' ad' npub' k' A CT ->
      exists m3,
        runs (a_dec (stp_impl b cf' junk') mp mlen c' (N.of_nat (length CT)) ad' (N.of_nat (length A)) npub' k') m2 0%Z m3 /\
        has m3 mp T /\ has m3 mlen (word_le 8 (N.of_nat (length T))).
Proof.
  intros Ia Ib Hs Hs' Hj Hj' V Hap.
  destruct (fam_stp_enc_out a cf junk mm c clen m ad npub k K Nn A T Ia Hs Hj V Hap) as (m1 & R & H1 & H2).
  exists m1, (Spec.isap_encrypt IA K Nn A T). split; [exact R|].
  split; [apply (e_CT A128A cf opt_consts mm c clen m ad npub k K Nn A T V)|]. split; [exact H1|]. split; [exact H2|].
  intros m2 mp mlen c' ad' npub' k' V' Hap'.
  apply (fam_stp_dec_genuine b cf' junk' K Nn A T m2); auto. apply (ev_msg _ _ _ _ _ _ _ _ _ _ _ _ _ V).
Qed.

(* Encryption writes what the reference writes. *)
Lemma fam_stp_enc_ref a cf junk cf' mm c clen m ad npub k mm' c' clen' m' ad' npub' k' K Nn A T :
  In a fam_stp -> strict cf = false -> length junk = 5%nat ->
  enc_valid cf opt_consts mm c clen m ad npub k K Nn A T ->
  apart mm S0 S1 [(k, 16); (npub, 16); (ad, length A); (m, length T); (c, length T + 16); (clen, 8)]%nat ->
  locals (v_loc A128A cf') mm' -> enc_valid cf' (ref_consts (v_macros A128A)) mm' c' clen' m' ad' npub' k' K Nn A T ->
  exists ct len h0 h1, length ct = (length T + 16)%nat /\ length len = 8%nat /\ length h0 = 8%nat /\ length h1 = 8%nat /\
    runs (a_enc (stp_impl a cf junk) c clen m (N.of_nat (length T)) ad (N.of_nat (length A)) npub k) mm 0%Z
      (putp (putp (putp (putp mm clen len) c ct) S0 h0) S1 h1) /\
    runs (a_enc (ref_impl A128A cf') c' clen' m' (N.of_nat (length T)) ad' (N.of_nat (length A)) npub' k') mm' 0%Z
      (putp (putp mm' clen' len) c' ct).
Proof.
  intros Ia Hs Hj V Hap L' V'.
  destruct (fam_stp_enc a cf junk mm c clen m ad npub k K Nn A T Ia Hs Hj V Hap) as (h0 & h1 & L0 & L1 & R).
  exists (Spec.isap_encrypt IA K Nn A T), (word_le 8 (N.of_nat (length T) + 16)), h0, h1.
  split; [apply (e_CT A128A cf opt_consts mm c clen m ad npub k K Nn A T V)|]. split; [apply word_le_length|].
  split; [exact L0|]. split; [exact L1|]. split; [exact R|].
  exact (io_enc _ _ _ _ _ (ref_correct A128A cf') mm' c' clen' m' ad' npub' k' K Nn A T L' V').
Qed.

(* Decryption: exactly two cases. *)
Lemma fam_stp_accept a cf junk mm m mlen c ad npub k K Nn A Y : In a fam_stp -> strict cf = false -> length junk = 5%nat ->
  dec_valid cf opt_consts mm m mlen c ad npub k K Nn A Y -> dec_apart mm m mlen c ad npub k A Y ->
  exists h0 h1, length h0 = 8%nat /\ length h1 = 8%nat /\
  let m2 := putp (putp (putp mm mlen (word_le 8 (N.of_nat (length Y) - 16))) S0 h0) S1 h1 in
  let call := a_dec (stp_impl a cf junk) m mlen c (N.of_nat (length Y)) ad (N.of_nat (length A)) npub k in
  (accepts K Nn A Y -> runs call mm 0%Z (putp m2 m (Spec.isap_enc IA K Nn (firstn (length Y - 16) Y)))) /\
  (~ accepts K Nn A Y -> runs call mm (-1)%Z m2).
Proof.
  intros H Hs Hj V Hap. destruct (fam_stp_ok a H) as [f Hf].
  exists (g0 f (mac_st Nn A (firstn (length Y - 16) Y))), (g1 f (mac_st Nn A (firstn (length Y - 16) Y))).
  split; [apply g0_length|]. split; [apply g1_length|]. cbv zeta. split; intros Q.
  - pose proof (stp_dec f a rounds_stp cf Hf in12 in1 in6 in7 (lax_al cf Hs) junk Hj mm m mlen c ad npub k K Nn A Y true
      (conj (fun _ => Q) (fun _ => eq_refl)) V Hap) as R. exact R.
  - pose proof (stp_dec f a rounds_stp cf Hf in12 in1 in6 in7 (lax_al cf Hs) junk Hj mm m mlen c ad npub k K Nn A Y false
      (conj (fun e => match Bool.diff_false_true e with end) (fun q => match Q q with end)) V Hap) as R. exact R.
Qed.

(* ---------- concrete calls ---------- *)

Definition stp_blocks : list (list N) := opt_consts ++ [repeat 7 8; repeat 9 8].
Lemma weaken_enc cf cs cs' mm c clen m ad npub k K Nn A T :
  enc_valid cf (cs ++ cs') mm c clen m ad npub k K Nn A T -> enc_valid cf cs mm c clen m ad npub k K Nn A T.
Proof.
  intros [C B1 B2 B3 B4 [R P] [R' [P' Al]] D D' F]. rewrite app_length in *. constructor; auto; try (repeat split; auto; lia).
  intros i Hi. rewrite (C i) by (rewrite app_length; lia). now rewrite app_nth1.
Qed.
Lemma weaken_dec cf cs cs' mm m mlen c ad npub k K Nn A Y :
  dec_valid cf (cs ++ cs') mm m mlen c ad npub k K Nn A Y -> dec_valid cf cs mm m mlen c ad npub k K Nn A Y.
Proof.
  intros [C B1 B2 B3 B4 [R P] [R' [P' Al]] D D' F]. rewrite app_length in *. constructor; auto; try (repeat split; auto; lia).
  intros i Hi. rewrite (C i) by (rewrite app_length; lia). now rewrite app_nth1.
Qed.

Lemma stp_enc_example : let mm := ex_mem stp_blocks ex_K ex_N ex_A ex_T 35 in
  enc_valid lax_cf opt_consts mm (ex_ptr stp_blocks 4) (ex_ptr stp_blocks 5)
    (ex_ptr stp_blocks 3) (ex_ptr stp_blocks 2) (ex_ptr stp_blocks 1) (ex_ptr stp_blocks 0) ex_K ex_N ex_A ex_T /\
  apart mm S0 S1 [(ex_ptr stp_blocks 0, 16); (ex_ptr stp_blocks 1, 16); (ex_ptr stp_blocks 2, length ex_A); (ex_ptr stp_blocks 3, length ex_T);
    (ex_ptr stp_blocks 4, length ex_T + 16); (ex_ptr stp_blocks 5, 8)]%nat.
Proof.
  cbv zeta. split.
  - apply (weaken_enc lax_cf opt_consts [repeat 7 8; repeat 9 8]).
    apply (ex_enc_valid lax_cf stp_blocks ex_K ex_N ex_A ex_T); auto using ex_bytes_K, ex_bytes_N, ex_bytes_A, ex_bytes_T; reflexivity.
  - split; [apply room_of_le; cbn; lia|]. split; [apply room_of_le; cbn; lia|].
    repeat (apply Forall_cons; [split; apply disj_blocks; cbn; lia|]). apply Forall_nil.
Qed.
Lemma stp_dec_example Y : bytes Y -> length Y = 35%nat -> let mm := ex_mem stp_blocks ex_K ex_N ex_A Y 19 in
  dec_valid lax_cf opt_consts mm (ex_ptr stp_blocks 4) (ex_ptr stp_blocks 5)
    (ex_ptr stp_blocks 3) (ex_ptr stp_blocks 2) (ex_ptr stp_blocks 1) (ex_ptr stp_blocks 0) ex_K ex_N ex_A Y /\
  dec_apart mm (ex_ptr stp_blocks 4) (ex_ptr stp_blocks 5)
    (ex_ptr stp_blocks 3) (ex_ptr stp_blocks 2) (ex_ptr stp_blocks 1) (ex_ptr stp_blocks 0) ex_A Y.
Proof.
  intros BY LY. cbv zeta. split.
  - apply (weaken_dec lax_cf opt_consts [repeat 7 8; repeat 9 8]).
    replace 19%nat with (length Y - 16)%nat by now rewrite LY.
    apply (ex_dec_valid lax_cf stp_blocks ex_K ex_N ex_A Y); auto using ex_bytes_K, ex_bytes_N, ex_bytes_A;
    rewrite ?LY; (reflexivity || lia).
  - split; [apply room_of_le; cbn; lia|]. split; [apply room_of_le; cbn; lia|].
    repeat (apply Forall_cons; [split; apply disj_blocks; cbn; lia|]). apply Forall_nil.
Qed.

(* ---------- two threads ---------- *)

(* The tag of the empty message with associated data [1]. *)
Definition ad_mem : mem := ex_mem opt_consts ex_K ex_N [1] [] 16.
Definition tag_ad : list N := Eval vm_compute in
  match a_enc (opt_impl opt_64 lax_cf (repeat 0 5)) (ex_ptr opt_consts 4) (ex_ptr opt_consts 5) (ex_ptr opt_consts 3) 0 (ex_ptr opt_consts 2)
        1 (ex_ptr opt_consts 1) (ex_ptr opt_consts 0) (St ad_mem []) with
  | Ok _ s => map (fun c => match c with Some v => v | None => 0 end) (nth 8 (smem s) [])
  | _ => [] end.
Lemma run_ad : exists m1, runs (a_enc (opt_impl opt_64 lax_cf (repeat 0 5)) (ex_ptr opt_consts 4) (ex_ptr opt_consts 5) (ex_ptr opt_consts 3)
  (N.of_nat (length (@nil N))) (ex_ptr opt_consts 2) (N.of_nat (length [1])) (ex_ptr opt_consts 1) (ex_ptr opt_consts 0)) ad_mem 0%Z m1 /\
  blk m1 8 = map Some tag_ad.
Proof. eexists. split; [apply out_runs; intros t; vm_compute; reflexivity|reflexivity]. Qed.
Lemma tag_ad_good : Spec.isap_encrypt IA ex_K ex_N [1] [] = tag_ad.
Proof.
  pose proof (fam_correct opt_64 lax_cf (repeat 0 5) ltac:(now left) eq_refl eq_refl) as H.
  assert (V : enc_valid lax_cf opt_consts ad_mem (ex_ptr opt_consts 4) (ex_ptr opt_consts 5) (ex_ptr opt_consts 3)
    (ex_ptr opt_consts 2) (ex_ptr opt_consts 1) (ex_ptr opt_consts 0) ex_K ex_N [1] []).
  { apply (ex_opt_enc lax_cf ex_K ex_N [1] []); auto using ex_bytes_K, ex_bytes_N; try reflexivity; repeat constructor. }
  pose proof (e_runs A128A lax_cf opt_consts no_cond _ H ad_mem _ _ _ _ _ _ _ _ _ _ (fun _ _ => Logic.I) V) as R.
  destruct run_ad as (m1 & R1 & B1).
  destruct (runs_det _ _ _ _ _ _ R1 R) as [_ Em]. clear R R1.
  pose proof (e_has_c A128A lax_cf opt_consts ad_mem _ _ _ _ _ _ _ _ _ _ V) as Hc.
  pose proof (proj1 (e_CT A128A lax_cf opt_consts ad_mem _ _ _ _ _ _ _ _ _ _ V)) as Lc.
  change (v_inst A128A) with IA in *. rewrite <- Em in Hc. clear Em. cbn [length Nat.add] in Lc.
  apply has_blk0 in B1. apply (nth_ext_le _ _ 0); [rewrite Lc; reflexivity|]. intros i Hi. specialize (Hc i Hi).
  rewrite Lc in Hi. specialize (B1 i Hi). unfold ex_ptr in Hc. cbn [opt_consts ref_consts length app Nat.add] in Hc. congruence.
Qed.

(* Two decryptions of genuine ciphertexts with separate output buffers, in one memory. *)
Definition two_mem : mem := map (map Some) (stp_blocks ++ [ex_K; ex_N; []; tag_good; []]) ++ [uninit 8] ++
  map (map Some) [[1]; tag_ad; []] ++ [uninit 8].
Definition thread_a (a : asconp) (junk : state) : thread :=
  decrypt_thread a lax_cf junk (P 10 0) (P 11 0) (P 9 0) 16 (P 8 0) 0 (P 7 0) (P 6 0).
Definition thread_b (a : asconp) (junk : state) : thread :=
  decrypt_thread a lax_cf junk (P 14 0) (P 15 0) (P 13 0) 16 (P 12 0) 1 (P 7 0) (P 6 0).

Definition ends (l : list bool) (t u : thread) (mm : mem) (r s : Z) : Prop :=
  exists m', runs (schedule l t u) mm (Done r, Done s) m'.
Lemma ends_compute l t u mm r s : (exists m', forall tr, out_of (schedule l t u (St mm tr)) = Some (Done r, Done s, m')) -> ends l t u mm r s.
Proof. intros [m' H]. exists m'. apply out_runs. exact H. Qed.

Lemma two_bad a junk : In a fam_stp -> ends [true; false; true; false] (thread_a a junk) (thread_b a junk) two_mem (-1) 0.
Proof.
  intros H. repeat (destruct H as [<-|H]; [apply ends_compute; eexists; intros tr; vm_compute; reflexivity|]). destruct H.
Qed.
Lemma two_good a junk : In a fam_stp -> ends [true; true; false; false] (thread_a a junk) (thread_b a junk) two_mem 0 0.
Proof.
  intros H. repeat (destruct H as [<-|H]; [apply ends_compute; eexists; intros tr; vm_compute; reflexivity|]). destruct H.
Qed.
Lemma two_good' a junk : In a fam_stp -> ends [false; false; true; true] (thread_a a junk) (thread_b a junk) two_mem 0 0.
Proof.
  intros H. repeat (destruct H as [<-|H]; [apply ends_compute; eexists; intros tr; vm_compute; reflexivity|]). destruct H.
Qed.

Lemma two_valid :
  dec_valid lax_cf opt_consts two_mem (P 10 0) (P 11 0) (P 9 0) (P 8 0) (P 7 0) (P 6 0) ex_K ex_N [] tag_good /\
  dec_apart two_mem (P 10 0) (P 11 0) (P 9 0) (P 8 0) (P 7 0) (P 6 0) [] tag_good /\
  dec_valid lax_cf opt_consts two_mem (P 14 0) (P 15 0) (P 13 0) (P 12 0) (P 7 0) (P 6 0) ex_K ex_N [1] tag_ad /\
  dec_apart two_mem (P 14 0) (P 15 0) (P 13 0) (P 12 0) (P 7 0) (P 6 0) [1] tag_ad.
Proof.
  assert (C : consts_ok opt_consts two_mem).
  { intros i Hi. cbn [opt_consts ref_consts length app] in Hi. do 4 (destruct i as [|i]; [reflexivity|]). lia. }
  assert (Hh : forall b bs, blk two_mem b = map Some bs -> bytes bs -> bytes_at two_mem (P b 0) bs).
  { intros b bs E B. split; auto. now apply has_blk0. }
  assert (Bg : bytes tag_good) by repeat constructor. assert (Ba : bytes tag_ad) by repeat constructor.
  assert (Ap : forall l, Forall (fun b : ptr * nat => (5 < pb (fst b))%nat) l -> apart two_mem S0 S1 l).
  { intros l Hl. split; [apply room_of_le; cbn; lia|]. split; [apply room_of_le; cbn; lia|].
    eapply Forall_impl; [|exact Hl]. cbv beta. intros b Hb. split; apply disj_blocks; unfold S0, S1; cbn [pb]; lia. }
  split; [|split; [|split]].
  - constructor; auto.
    + split; [apply Hh; [reflexivity|apply ex_bytes_K]|reflexivity].
    + split; [apply Hh; [reflexivity|apply ex_bytes_N]|reflexivity].
    + split; [apply Hh; [reflexivity|constructor]|reflexivity].
    + split; [apply Hh; [reflexivity|exact Bg]|split; [reflexivity|cbn; lia]].
    + split; [apply room_of_le; cbn; lia|cbn; lia].
    + split; [apply room_of_le; cbn; lia|split; [cbn; lia|reflexivity]].
    + repeat split; apply disj_blocks; cbn; lia.
    + repeat split; apply disj_blocks; cbn; lia.
    + apply fwd_ok_disj, disj_blocks. cbn. lia.
  - apply Ap. repeat constructor; cbn; lia.
  - constructor; auto.
    + split; [apply Hh; [reflexivity|apply ex_bytes_K]|reflexivity].
    + split; [apply Hh; [reflexivity|apply ex_bytes_N]|reflexivity].
    + split; [apply Hh; [reflexivity|repeat constructor]|reflexivity].
    + split; [apply Hh; [reflexivity|exact Ba]|split; [reflexivity|cbn; lia]].
    + split; [apply room_of_le; cbn; lia|cbn; lia].
    + split; [apply room_of_le; cbn; lia|split; [cbn; lia|reflexivity]].
    + repeat split; apply disj_blocks; cbn; lia.
    + repeat split; apply disj_blocks; cbn; lia.
    + apply fwd_ok_disj, disj_blocks. cbn. lia.
  - apply Ap. repeat constructor; cbn; lia.
Qed.

Lemma stp_race : exists mm m1 mlen1 c1 ad1 m2 mlen2 c2 ad2 npub k K Nn A1 T1 A2 T2,
  let Y1 := Spec.isap_encrypt IA K Nn A1 T1 in
  let Y2 := Spec.isap_encrypt IA K Nn A2 T2 in
  dec_valid lax_cf opt_consts mm m1 mlen1 c1 ad1 npub k K Nn A1 Y1 /\ dec_apart mm m1 mlen1 c1 ad1 npub k A1 Y1 /\
  dec_valid lax_cf opt_consts mm m2 mlen2 c2 ad2 npub k K Nn A2 Y2 /\ dec_apart mm m2 mlen2 c2 ad2 npub k A2 Y2 /\
  NoDup (map pb [m1; mlen1; m2; mlen2; c1; c2; ad1; ad2; npub; k]) /\
  forall a junk, In a fam_stp ->
    let t1 := decrypt_thread a lax_cf junk m1 mlen1 c1 (N.of_nat (length T1 + 16)) ad1 (N.of_nat (length A1)) npub k in
    let t2 := decrypt_thread a lax_cf junk m2 mlen2 c2 (N.of_nat (length T2 + 16)) ad2 (N.of_nat (length A2)) npub k in
    ends [true; true; false; false] t1 t2 mm 0 0 /\ ends [false; false; true; true] t1 t2 mm 0 0 /\
    ends [true; false; true; false] t1 t2 mm (-1) 0.
Proof.
  exists two_mem, (P 10 0), (P 11 0), (P 9 0), (P 8 0), (P 14 0), (P 15 0), (P 13 0), (P 12 0), (P 7 0), (P 6 0), ex_K, ex_N, [], [], [1], [].
  cbv zeta. rewrite good_isap, tag_ad_good. destruct two_valid as (V1 & P1 & V2 & P2).
  split; [exact V1|]. split; [exact P1|]. split; [exact V2|]. split; [exact P2|].
  split; [cbn; repeat constructor; cbn; lia|].
  intros a junk H. split; [apply (two_good a junk H)|]. split; [apply (two_good' a junk H)|apply (two_bad a junk H)].
Qed.

Lemma fam_thread_alone a cf junk mm m mlen c ad npub k K Nn A Y r mm' u : In a fam_stp -> strict cf = false -> length junk = 5%nat ->
  dec_valid cf opt_consts mm m mlen c ad npub k K Nn A Y -> dec_apart mm m mlen c ad npub k A Y ->
  runs (a_dec (stp_impl a cf junk) m mlen c (N.of_nat (length Y)) ad (N.of_nat (length A)) npub k) mm r mm' ->
  runs (schedule [true; true] (decrypt_thread a cf junk m mlen c (N.of_nat (length Y)) ad (N.of_nat (length A)) npub k) u) mm (Done r, u) mm'.
Proof.
  intros H Hs Hj V Hap R. destruct (fam_stp_ok a H) as [f Hf].
  assert (D : exists b, b = true <-> accepts K Nn A Y).
  { unfold accepts. destruct (list_eq_dec N.eq_dec (image (skipn (length Y - 16) Y) (mac_st Nn A (firstn (length Y - 16) Y)))
      (image (Spec.isap_mac IA K Nn A (firstn (length Y - 16) Y)) (mac_st Nn A (firstn (length Y - 16) Y)))) as [E|E].
    - exists true. tauto.
    - exists false. split; [discriminate|]. intros E2. contradiction. }
  destruct D as [b Eb].
  pose proof (stp_dec f a rounds_stp cf Hf in12 in1 in6 in7 (lax_al cf Hs) junk Hj mm m mlen c ad npub k K Nn A Y b Eb V Hap) as R1.
  pose proof (thread_alone f a rounds_stp cf Hf in12 in1 in6 in7 (lax_al cf Hs) junk Hj mm m mlen c ad npub k K Nn A Y b u Eb V Hap) as R2.
  destruct (runs_det _ _ _ _ _ _ R R1) as [-> ->]. exact R2.
Qed.
