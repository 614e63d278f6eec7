(* What the record of AvxAProbeProof.v and AvxAEncProbe.v says about isapa128av20/avx_512. Proofs only. *)
From Verif Require Import Base SpecPerm Words Mem Vocab Vocab2 VocabK MemProof RefLib Trace Spec Sponge RefProof RefAead SpecFacts Api ApiProof ApiProps.
From Verif Require Import OptPerm OptRep OptPermProof OptIsap OptLanes OptProof OptImpl A128Proof A128Impl AvxA AvxAProof AvxAEnc AvxAImpl.
From Verif Require Import VocabProbe VocabOptProbe ProbeProof ProbeTop ApiProbe OptProbeTop A128ProbeProof VocabAvxProbe AvxAProbeProof AvxAEncProbe.
From Verif Require RefIsap ApiCode OptProbe AvxAProbe.
Import AvxAProbe(probed_avxa).
Import Spec.
Open Scope N_scope.

Notation IA := ISAP_A_128A.
Notation vw leak := (fun s => leak (held avxa s)).

Lemma vx_enc UL leak cf mm c clen m ad npub k K Nn A T : strict cf = false ->
  avx_lens UL mm k npub ad (length A) m c (length T) -> enc_valid cf csA mm c clen m ad npub k K Nn A T ->
  logs (a_enc (probed_avxa UL leak cf) c clen m (N.of_nat (length T)) ad (N.of_nat (length A)) npub k) mm 0%Z
       (putp (putp mm clen (word_le 8 (N.of_nat (length T) + 16))) c (isap_encrypt IA K Nn A T))
       (seen_v (vw leak) (avx_enc_in K Nn A T)).
Proof.
  intros Hs (LA & LT & L63) V.
  destruct V as [Vc [[Bk Hk] Lk] [[Bn Hn] Ln] [[Ba Ha] La] [[Bt Ht] Lt] [Rc Pc] [Rl [Pl Al]]
      (D1 & D2 & D3 & D4 & D5) (D6 & D7 & D8) Hf].
  cbn [probed_avxa a_enc]. unfold AvxAProbe.crypto_aead_encryptA, RefIsap.ISAP_TAG_SZ. rewrite u64_small by lia.
  set (m1 := putp mm clen (word_le 8 (N.of_nat (length T) + 16))).
  assert (Hl8 : room mm clen (length (word_le 8 (N.of_nat (length T) + 16)))) by now rewrite word_le_length.
  eapply logs_step; [apply runs_store_ull; auto|apply ApiProbe.silent_store_ull|]. fold m1.
  assert (F1 : forall q bs, has mm q bs -> disj clen 8 q (length bs) -> has m1 q bs).
  { intros q bs H1 H2. apply has_putp_disj; rewrite ?word_le_length; auto. }
  eapply logs_last; [|apply runs_ret|apply silent_ret].
  apply l_mac_enc; auto using cal_lax.
  - apply consts_putp; auto.
  - split; auto. apply F1; auto. now rewrite Lk.
  - split; auto. apply F1; auto. now rewrite Ln.
  - split; auto.
  - split; auto.
  - now apply ulA_small.
  - now apply room_putp.
Qed.

Section Logs.
  Variables (UL : N) (leak : OptIsap.state -> N) (cf : cfg).
  Hypothesis Hlax : strict cf = false.
  Hypothesis HU : UL <= 64.
  Lemma vx_enc_log : enc_log csA (fun _ => True) (fun _ _ => True) (fun _ => True) (2 ^ UL)
    (AvxAProbe.isap_encA UL cf (OptProbe.record leak)) (isap_enc IA) (fun K Nn n => seen (vw leak) (enc_in IA K Nn n)).
  Proof.
    intros mm k npub m c K Nn T Hc _ Hk LK Hn LN HT L64 HT0 Rc _ _ _ Hf _ _ _ _.
    apply l_encA; auto using cal_lax.
  Qed.
  Lemma vx_mac_log : mac_log csA (fun _ => True) (fun _ _ => True) (fun _ => True) (2 ^ UL) (fun n => n)
    (AvxAProbe.isap_macA UL cf (OptProbe.record leak)) (isap_mac IA) (fun K Nn A C => seen (vw leak) (mac_in IA K Nn A C)).
  Proof.
    intros mm k npub ad c tag K Nn A C Hc _ Hk LK Hn LN HA HC La Lc Rt _ _ _ _ _ _ _ _ _ _ _.
    apply l_macA; auto using cal_lax; now apply ulA_small.
  Qed.
End Logs.

Lemma vx_dec UL leak cf mm m mlen c ad npub k K Nn A Y : UL <= 64 -> strict cf = false ->
  avx_lens UL mm k npub ad (length A) c m (length Y - 16)%nat -> dec_valid cf csA mm m mlen c ad npub k K Nn A Y ->
  logs (a_dec (probed_avxa UL leak cf) m mlen c (N.of_nat (length Y)) ad (N.of_nat (length A)) npub k) mm
       (match isap_decrypt IA K Nn A Y with Some _ => 0%Z | None => (-1)%Z end)
       (let m1 := putp mm mlen (word_le 8 (N.of_nat (length Y) - 16)) in
        match isap_decrypt IA K Nn A Y with Some T => putp m1 m T | None => m1 end)
       (seen (vw leak) (mac_in IA K Nn A (firstn (length Y - 16) Y) ++
          match isap_decrypt IA K Nn A Y with Some _ => enc_in IA K Nn (length Y - 16) | None => [] end)).
Proof.
  intros HU Hs (LA & LT & _) V. cbn [probed_avxa a_dec].
  assert (GY : (16 <= length Y)%nat /\ N.of_nat (length Y) < 2 ^ 64).
  { pose proof (dv_ct _ _ _ _ _ _ _ _ _ _ _ _ _ V). lia. }
  assert (LT' : N.of_nat (length Y) - 16 < 2 ^ UL) by lia.
  pose proof (api_dec_logs cf csA (fun _ => True) (fun _ _ => True) (fun _ => True) (2 ^ UL) (fun n => n)
           (AvxAProbe.isap_encA UL cf (OptProbe.record leak)) (AvxAProbe.isap_macA UL cf (OptProbe.record leak))
           (isap_enc IA) (isap_mac IA)
           (fun K Nn n => seen (vw leak) (enc_in IA K Nn n))
           (fun K Nn A C => seen (vw leak) (mac_in IA K Nn A C))) as G.
  specialize (fun H1 H2 => G H1 H2 (v_encf A128A) (v_mac_macf A128A) csA_ne (fun n => ltac:(lia)) mm m mlen c ad npub k K Nn A Y).
  cbv zeta in G.
  unfold isap_decrypt. destruct (Nat.ltb_spec (length Y) 16) as [?|_]; [lia|].
  assert (Ez : forall b : bool, seen (vw leak) (if b then enc_in IA K Nn (length Y - 16) else []) =
    if b then (if (length Y - 16 =? 0)%nat then [] else seen (vw leak) (enc_in IA K Nn (length Y - 16))) else []).
  { intros [|]; [|reflexivity]. unfold enc_in. now destruct (Nat.eqb_spec (length Y - 16) 0). }
  rewrite seen_app.
  destruct (list_eq_dec _ _ _) as [E|E]; cbv iota beta zeta;
    [rewrite (Ez true)|rewrite (Ez false)]; apply G; auto;
    try (now apply vx_enc_log);
    try (now apply vx_mac_log);
    try apply V; try lia; try (apply room_has; apply V); intros b _; exact Logic.I.
Qed.

Lemma vx_enc_same UL leak cf mm c clen m ad npub k K Nn A T : strict cf = false ->
  avx_lens UL mm k npub ad (length A) m c (length T) -> enc_valid cf csA mm c clen m ad npub k K Nn A T ->
  exists m1,
    runs (a_enc (impl_avxa UL cf) c clen m (N.of_nat (length T)) ad (N.of_nat (length A)) npub k) mm 0%Z m1 /\
    logs (a_enc (probed_avxa UL leak cf) c clen m (N.of_nat (length T)) ad (N.of_nat (length A)) npub k) mm 0%Z m1
      (seen_v (vw leak) (avx_enc_in K Nn A T)).
Proof. intros Hs L V. eexists. split; [|now apply vx_enc]. now apply avxa_enc. Qed.

Lemma vx_dec_same UL leak cf mm m mlen c ad npub k K Nn A Y : UL <= 64 -> strict cf = false ->
  avx_lens UL mm k npub ad (length A) c m (length Y - 16)%nat -> dec_valid cf csA mm m mlen c ad npub k K Nn A Y ->
  exists r m1,
    runs (a_dec (impl_avxa UL cf) m mlen c (N.of_nat (length Y)) ad (N.of_nat (length A)) npub k) mm r m1 /\
    logs (a_dec (probed_avxa UL leak cf) m mlen c (N.of_nat (length Y)) ad (N.of_nat (length A)) npub k) mm r m1
      (seen (vw leak) (mac_in IA K Nn A (firstn (length Y - 16) Y) ++
         if (r =? 0)%Z then enc_in IA K Nn (length Y - 16) else [])) /\
    (r = 0%Z <-> skipn (length Y - 16) Y = isap_mac IA K Nn A (firstn (length Y - 16) Y)).
Proof.
  intros HU Hs L V. do 2 eexists. split; [|split].
  - apply (ioi_dec _ _ _ _ _ (avxa_correct UL cf HU Hs)) with (K := K) (Nn := Nn) (A := A); auto.
  - pose proof (vx_dec UL leak cf mm m mlen c ad npub k K Nn A Y HU Hs L V) as P. cbv zeta in P.
    destruct (isap_decrypt IA K Nn A Y); exact P.
  - assert (G : (16 <= length Y)%nat) by apply V.
    unfold isap_decrypt. destruct (Nat.ltb_spec (length Y) 16); [lia|].
    destruct (list_eq_dec _ _ _) as [E|E]; split; intros H1; congruence.
Qed.

Lemma vx_dec_shape UL cf mm m mlen c ad npub k K Nn A Y : UL <= 64 -> strict cf = false ->
  avx_lens UL mm k npub ad (length A) c m (length Y - 16)%nat -> dec_valid cf csA mm m mlen c ad npub k K Nn A Y ->
  dec_shape A128A K (fun leak => a_dec (probed_avxa UL leak cf) m mlen c (N.of_nat (length Y)) ad (N.of_nat (length A)) npub k)
    (fun leak s => leak (held avxa s)) mm Nn A Y.
Proof.
  intros HU Hs L V. pose proof (dv_nonce _ _ _ _ _ _ _ _ _ _ _ _ _ V) as [[Bn _] Ln].
  pose proof (dv_ad _ _ _ _ _ _ _ _ _ _ _ _ _ V) as [[Ba _] _]. pose proof (dv_ct _ _ _ _ _ _ _ _ _ _ _ _ _ V) as [[By _] _].
  repeat split; auto.
  pose proof (fun leak => vx_dec UL leak cf mm m mlen c ad npub k K Nn A Y HU Hs L V) as P. cbv zeta in P.
  destruct (isap_decrypt IA K Nn A Y); do 2 eexists; exact P.
Qed.

Lemma vx_dec_public Nn A Y : exists h, forall UL cf mm m mlen c ad npub k K, UL <= 64 -> strict cf = false ->
  avx_lens UL mm k npub ad (length A) c m (length Y - 16)%nat -> dec_valid cf csA mm m mlen c ad npub k K Nn A Y ->
  exists R z r m1, length R = 129%nat /\
    forall leak, logs (a_dec (probed_avxa UL leak cf) m mlen c (N.of_nat (length Y)) ad (N.of_nat (length A)) npub k) mm r m1
      (seen (vw leak) (h ++ R ++ [z] ++ if (r =? 0)%Z then enc_in IA K Nn (length Y - 16) else [])).
Proof.
  exists (hash_in IA Nn A (firstn (length Y - 16) Y)). intros UL cf mm m mlen c ad npub k K HU Hs L0 V.
  destruct (dec_shape_parts _ _ _ _ _ _ _ _ (vx_dec_shape UL cf mm m mlen c ad npub k K Nn A Y HU Hs L0 V)) as (hs & z & r & m1 & L & P).
  exists (rk_in IA K (iv_KA IA) hs), z, r, m1. split; [|exact P]. apply (rk_two IA K (iv_KA IA) hs hs L L).
Qed.

Lemma half_12 s : wf40 s -> ascon_p 6 (half s) = ascon_p 12 s.
Proof.
  intros W. unfold ascon_p, ascon_p_words. fold (lanes (half s)) (lanes s). rewrite lanes_half by exact W. rewrite <- fold_left_app. reflexivity.
Qed.

(* ---- Two encryptions under one key ---- *)

Lemma vx_enc_two UL cf mm c clen m ad npub k K Nn A T UL' cf' mm' c' clen' m' ad' npub' k' Nn' A' T' :
  strict cf = false -> avx_lens UL mm k npub ad (length A) m c (length T) -> enc_valid cf csA mm c clen m ad npub k K Nn A T ->
  strict cf' = false -> avx_lens UL' mm' k' npub' ad' (length A') m' c' (length T') -> enc_valid cf' csA mm' c' clen' m' ad' npub' k' K Nn' A' T' ->
  exists Q e R z m1 Q' e' R' z' m1',
    two_limited Q Q' /\ two_limited R R' /\
    (forall leak, logs (a_enc (probed_avxa UL leak cf) c clen m (N.of_nat (length T)) ad (N.of_nat (length A)) npub k) mm 0%Z m1
       (seen_v (vw leak) (ones Q ++ e ++ ones (R ++ [z])))) /\
    (forall leak, logs (a_enc (probed_avxa UL' leak cf') c' clen' m' (N.of_nat (length T')) ad' (N.of_nat (length A')) npub' k') mm' 0%Z m1'
       (seen_v (vw leak) (ones Q' ++ e' ++ ones (R' ++ [z'])))) /\
    (Nn = Nn' -> Q = Q') /\ (Nn = Nn' -> A = A' -> T = T' -> e = e').
Proof.
  assert (Gen : forall UL cf mm c clen m ad npub k Nn A T,
    strict cf = false -> avx_lens UL mm k npub ad (length A) m c (length T) -> enc_valid cf csA mm c clen m ad npub k K Nn A T ->
    let h := hash_end IA Nn A (isap_enc IA K Nn T) in
    let b := S (length A / 8) in
    let n := avx_rounds_n (length T) in
    length Nn = 16%nat /\ length (firstn 16 h) = 16%nat /\ exists m1,
    (forall leak, logs (a_enc (probed_avxa UL leak cf) c clen m (N.of_nat (length T)) ad (N.of_nat (length A)) npub k) mm 0%Z m1
       (seen_v (vw leak) (ones (rk_in IA K (iv_KE IA) Nn) ++
         (ones (firstn b (hash_in IA Nn A (isap_enc IA K Nn T))) ++
          pairs (stream IA (isap_rk IA K (iv_KE IA) Nn 24 ++ Nn) (2 * n)) (skipn b (hash_in IA Nn A (isap_enc IA K Nn T))) ++
          ones (skipn (b + n) (hash_in IA Nn A (isap_enc IA K Nn T)))) ++
         ones (rk_in IA K (iv_KA IA) (firstn 16 h) ++ [(isap_rk IA K (iv_KA IA) (firstn 16 h) 16 ++ skipn 16 h, 12%nat)]))))).
  { clear. intros UL cf mm c clen m ad npub k Nn A T Hs L V h b n.
    pose proof (ev_nonce _ _ _ _ _ _ _ _ _ _ _ _ _ V) as [[Bn _] Ln].
    pose proof (ev_ad _ _ _ _ _ _ _ _ _ _ _ _ _ V) as [[Ba _] _]. pose proof (ev_key _ _ _ _ _ _ _ _ _ _ _ _ _ V) as [[Bk _] Lk].
    pose proof (ev_msg _ _ _ _ _ _ _ _ _ _ _ _ _ V) as [[Bt _] _].
    split; auto. split; [apply (hash_end_16 A128A); auto; now apply (v_enc_bytes A128A)|].
    eexists. intros leak. pose proof (vx_enc UL leak cf mm c clen m ad npub k K Nn A T Hs L V) as P.
    unfold avx_enc_in in P. cbv zeta in P. fold h b n in P. rewrite !ones_app, <- ?app_assoc in P. rewrite !ones_app, <- !app_assoc. exact P. }
  intros Hs L V Hs' L' V'.
  destruct (Gen _ _ _ _ _ _ _ _ _ _ _ _ Hs L V) as (Ln & Lh & m1 & P).
  destruct (Gen _ _ _ _ _ _ _ _ _ _ _ _ Hs' L' V') as (Ln' & Lh' & m1' & P').
  do 4 eexists. exists m1. do 4 eexists. exists m1'.
  split; [|split; [|split; [exact P|split; [exact P'|]]]].
  - now apply rk_two.
  - now apply rk_two.
  - split; [now intros ->|now intros -> -> ->].
Qed.

(* The empty message: the specification does not run isap_enc, this code permutes 129 + 2 times for it. *)
Lemma hash_in_length Nn A C : length (hash_in IA Nn A C) = S (length (chunks 8 (pad 8 A)) + length (chunks 8 (pad 8 C))).
Proof.
  assert (LA : forall bs s, length (absorb_in IA s bs) = length bs).
  { induction bs as [|b bs IH]; intros s; [reflexivity|]. cbn [absorb_in length]. now rewrite IH. }
  unfold hash_in. cbn [length]. now rewrite app_length, !LA.
Qed.
Lemma vx_enc_empty UL cf mm c clen m ad npub k K Nn A : strict cf = false ->
  avx_lens UL mm k npub ad (length A) m c 0%nat -> enc_valid cf csA mm c clen m ad npub k K Nn A [] ->
  let H := hash_in IA Nn A [] in
  let b := S (length A / 8) in
  let s := isap_rk IA K (iv_KE IA) Nn 24 ++ Nn in
  exists m1 (x : call) R,
    (forall leak, logs (a_enc (probed_avxa UL leak cf) c clen m 0 ad (N.of_nat (length A)) npub k) mm 0%Z m1
      (seen_v (vw leak) (ones (rk_in IA K (iv_KE IA) Nn ++ firstn b H) ++ [both s (fst x); both (ascon_p 6 s) (half (fst x))] ++ ones (skipn (b + 1) H ++ R)))) /\
    nth_error H b = Some x /\ enc_in IA K Nn 0 = [].
Proof.
  intros Hs L V H b s.
  assert (E0 : isap_enc IA K Nn [] = []) by reflexivity.
  destruct (nth_error H b) as [x|] eqn:Ex.
  2:{ exfalso. apply nth_error_None in Ex. unfold H in Ex. rewrite hash_in_length in Ex.
      assert (L8 : forall x : list N, length (chunks 8 (pad 8 x)) = S (length x / 8)).
      { intros x. apply (chunks_length_mult 8 (S (length x / 8)) (pad 8 x)); [lia|].
        unfold pad. rewrite app_length. cbn [length]. rewrite repeat_length.
        pose proof (Nat.div_mod (length x) 8 ltac:(lia)). pose proof (Nat.mod_upper_bound (length x) 8 ltac:(lia)). lia. }
      rewrite !L8 in Ex. unfold b in Ex. lia. }
  eexists. exists x. eexists. split; [|split; [reflexivity|reflexivity]].
  intros leak. pose proof (vx_enc UL leak cf mm c clen m ad npub k K Nn A [] Hs L V) as P.
  unfold avx_enc_in in P. cbv zeta in P. rewrite E0 in P. change (avx_rounds_n (length [])) with 1%nat in P. fold H b s in P.
  assert (Es : skipn b H = x :: skipn (b + 1) H).
  { clear -Ex. revert Ex. generalize H. induction b as [|b IH]; intros [|y l] E; cbn in *; try discriminate; auto. now injection E as ->. }
  rewrite Es in P. exact P.
Qed.

Lemma vx_device_off UL cf :
  AvxAProbe.crypto_aead_encryptA UL cf (fun _ => ret tt) = crypto_aead_encryptA UL cf /\
  AvxAProbe.isap_encA UL cf (fun _ => ret tt) = isap_encA UL cf /\
  AvxAProbe.isap_macA UL cf (fun _ => ret tt) = isap_macA UL cf.
Proof. repeat split. Qed.
