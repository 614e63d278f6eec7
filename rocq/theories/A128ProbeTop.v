(* What the record of A128ProbeProof.v says about the optimised ISAP-A-128 implementations. Proofs only, apart from names for the functions of
   A128Probe.v. *)
From Verif Require Import Base SpecPerm Words Mem Vocab Vocab2 MemProof RefLib Trace Spec Sponge RefProof RefAead SpecFacts Api ApiProof ApiProps.
From Verif Require Import OptPerm OptRep OptPermProof OptIsap OptLanes OptProof OptImpl A128Perm A128PermProof A128 A128Proof A128Impl.
From Verif Require Import VocabProbe VocabOptProbe ProbeProof ProbeTop ApiProbe OptProbeTop A128ProbeProof.
From Verif Require RefIsap ApiCode OptProbe A128Probe.
Import A128Probe(a128, A64, A32, A67, a128_lanes, a128_plain, probed_a128).
Import Spec.
Open Scope N_scope.

Notation I12 := ISAP_A_128.

Definition px_enc (x : a128) (leak : OptIsap.state -> N) (cf : cfg) : forall (k npub m : ptr) (mlen : N) (c : ptr), M unit :=
  match x with
  | A64 => A128Probe.isap_enc_64 a128_64 64 cf (OptProbe.record leak)
  | A32 => A128Probe.isap_enc_32 a128_32 a128_32 cf (OptProbe.record leak)
  | A67 => A128Probe.isap_enc_32 a128_67_loop a128_67_urol cf (OptProbe.record leak)
  end.
Definition px_mac (x : a128) (leak : OptIsap.state -> N) (cf : cfg) :
    forall (k npub ad : ptr) (adlen : N) (c : ptr) (clen : N) (tag : ptr), M unit :=
  match x with
  | A64 => A128Probe.isap_mac_64 a128_64 64 cf (OptProbe.record leak)
  | A32 => A128Probe.isap_mac_32 a128_32 a128_32 cf (OptProbe.record leak)
  | A67 => A128Probe.isap_mac_32 a128_67_loop a128_67_urol cf (OptProbe.record leak)
  end.
Lemma probed_eq x leak cf : probed_a128 x leak cf =
  Aead (ApiCode.crypto_aead_encrypt (px_enc x leak cf) (px_mac x leak cf) cf) (ApiCode.crypto_aead_decrypt (px_enc x leak cf) (px_mac x leak cf) cf).
Proof. destruct x; reflexivity. Qed.
Lemma plain_ok x cf : strict cf = false -> impl_ok I12 cf cs128 no_cond (a128_plain x cf).
Proof. destruct x; [exact (a128_64_correct cf)|exact (a128_32_correct cf)|exact (a128_67_correct cf)]. Qed.

Section Logs.
  Variables (x : a128) (leak : OptIsap.state -> N) (cf : cfg).
  Hypothesis Hlax : strict cf = false.
  Notation sn := (seen (fun s => leak (held (a128_lanes x) s))).
  Lemma px_enc_log : enc_log cs128 (fun _ => True) (fun _ _ => True) (fun _ => True) (2 ^ 64) (px_enc x leak cf) (isap_enc I12)
    (fun K Nn n => sn (enc_in I12 K Nn n)).
  Proof.
    intros mm k npub m c K Nn T Hc _ Hk LK Hn LN HT L64 HT0 Rc _ _ _ Hf _ _ _ _. destruct x.
    - apply (l_enc_64 f_id a128_64 rounds12 cf 64 leak a128_64_ok in12 (cal_lax cf Hlax) Hlax (N.le_refl 64)); auto.
    - apply (l_enc_32 f_bi32 a128_32 a128_32 rounds12 rounds12 cf leak a128_32_ok a128_32_ok in12 in12 Hlax); auto.
    - apply (l_enc_32 f_bi32 a128_67_loop a128_67_urol rounds12 rounds12 cf leak a128_67_loop_ok a128_67_urol_ok in12 in12 Hlax); auto.
  Qed.
  Lemma px_mac_log : mac_log cs128 (fun _ => True) (fun _ _ => True) (fun _ => True) (2 ^ 64) (fun n => n) (px_mac x leak cf) (isap_mac I12)
    (fun K Nn A C => sn (mac_in I12 K Nn A C)).
  Proof.
    intros mm k npub ad c tag K Nn A C Hc _ Hk LK Hn LN HA HC La Lc Rt _ _ _ _ _ _ _ _ _ _ _. destruct x.
    - apply (l_mac_64 f_id a128_64 rounds12 cf 64 leak a128_64_ok in12 (cal_lax cf Hlax) Hlax); auto; now apply ul_small.
    - apply (l_mac_32 f_bi32 a128_32 a128_32 rounds12 rounds12 cf leak a128_32_ok a128_32_ok in12 in12 Hlax); auto.
    - apply (l_mac_32 f_bi32 a128_67_loop a128_67_urol rounds12 rounds12 cf leak a128_67_loop_ok a128_67_urol_ok in12 in12 Hlax); auto.
  Qed.
End Logs.

Lemma ax_enc a leak cf mm c clen m ad npub k K Nn A T : strict cf = false -> enc_valid cf cs128 mm c clen m ad npub k K Nn A T ->
  logs (a_enc (probed_a128 a leak cf) c clen m (N.of_nat (length T)) ad (N.of_nat (length A)) npub k) mm 0%Z
       (putp (putp mm clen (word_le 8 (N.of_nat (length T) + 16))) c (isap_encrypt I12 K Nn A T))
       (seen (fun s => leak (held (a128_lanes a) s)) (enc_in I12 K Nn (length T) ++ mac_in I12 K Nn A (isap_enc I12 K Nn T))).
Proof.
  intros Hs V. rewrite probed_eq. cbn [a_enc a_dec].
  rewrite seen_app.
  replace (seen _ (enc_in I12 K Nn (length T))) with
    (if (length T =? 0)%nat then [] else seen (fun s => leak (held (a128_lanes a) s)) (enc_in I12 K Nn (length T))).
  2:{ unfold enc_in. now destruct (Nat.eqb_spec (length T) 0) as [E|E]. }
  apply (api_enc_logs cf cs128 (fun _ => True) (fun _ _ => True) (fun _ => True) (2 ^ 64) (fun n => n)
           (px_enc a leak cf) (px_mac a leak cf)
           (isap_enc I12) (isap_mac I12)
           (fun K Nn n => seen (fun s => leak (held (a128_lanes a) s)) (enc_in I12 K Nn n))
           (fun K Nn A C => seen (fun s => leak (held (a128_lanes a) s)) (mac_in I12 K Nn A C))); auto.
  - now apply px_enc_log.
  - now apply px_mac_log.
  - apply (v_encf A128).
  - apply (v_mac_macf A128).
  - exact cs12_ne.
  - intros; lia.
  - intros b _. exact Logic.I.
  - apply V.
  - pose proof (ev_msg _ _ _ _ _ _ _ _ _ _ _ _ _ V). lia.
  - apply room_has. apply V.
Qed.

Lemma ax_dec a leak cf mm m mlen c ad npub k K Nn A Y : strict cf = false -> dec_valid cf cs128 mm m mlen c ad npub k K Nn A Y ->
  logs (a_dec (probed_a128 a leak cf) m mlen c (N.of_nat (length Y)) ad (N.of_nat (length A)) npub k) mm
       (match isap_decrypt I12 K Nn A Y with Some _ => 0%Z | None => (-1)%Z end)
       (let m1 := putp mm mlen (word_le 8 (N.of_nat (length Y) - 16)) in
        match isap_decrypt I12 K Nn A Y with Some T => putp m1 m T | None => m1 end)
       (seen (fun s => leak (held (a128_lanes a) s)) (mac_in I12 K Nn A (firstn (length Y - 16) Y) ++
          match isap_decrypt I12 K Nn A Y with Some _ => enc_in I12 K Nn (length Y - 16) | None => [] end)).
Proof.
  intros Hs V. rewrite probed_eq. cbn [a_enc a_dec].
  assert (GY : (16 <= length Y)%nat /\ N.of_nat (length Y) < 2 ^ 64).
  { pose proof (dv_ct _ _ _ _ _ _ _ _ _ _ _ _ _ V). lia. }
  pose proof (api_dec_logs cf cs128 (fun _ => True) (fun _ _ => True) (fun _ => True) (2 ^ 64) (fun n => n)
           (px_enc a leak cf) (px_mac a leak cf)
           (isap_enc I12) (isap_mac I12)
           (fun K Nn n => seen (fun s => leak (held (a128_lanes a) s)) (enc_in I12 K Nn n))
           (fun K Nn A C => seen (fun s => leak (held (a128_lanes a) s)) (mac_in I12 K Nn A C))) as G.
  specialize (fun H1 H2 => G H1 H2 (v_encf A128) (v_mac_macf A128) cs12_ne (fun n => ltac:(lia)) mm m mlen c ad npub k K Nn A Y).
  cbv zeta in G.
  unfold isap_decrypt. destruct (Nat.ltb_spec (length Y) 16) as [?|_]; [lia|].
  assert (Ez : forall b : bool, seen (fun s => leak (held (a128_lanes a) s)) (if b then enc_in I12 K Nn (length Y - 16) else []) =
    if b then (if (length Y - 16 =? 0)%nat then [] else seen (fun s => leak (held (a128_lanes a) s)) (enc_in I12 K Nn (length Y - 16))) else []).
  { intros [|]; [|reflexivity]. unfold enc_in. now destruct (Nat.eqb_spec (length Y - 16) 0). }
  rewrite seen_app.
  destruct (list_eq_dec _ _ _) as [E|E]; cbv iota beta zeta;
    [rewrite (Ez true)|rewrite (Ez false)]; apply G; auto;
    try (now apply px_enc_log);
    try (now apply px_mac_log);
    try apply V; try lia; try (apply room_has; apply V); intros b _; exact Logic.I.
Qed.

Lemma ax_enc_same a leak cf mm c clen m ad npub k K Nn A T : strict cf = false -> enc_valid cf cs128 mm c clen m ad npub k K Nn A T ->
  exists m1,
    runs (a_enc (a128_plain a cf) c clen m (N.of_nat (length T)) ad (N.of_nat (length A)) npub k) mm 0%Z m1 /\
    logs (a_enc (probed_a128 a leak cf) c clen m (N.of_nat (length T)) ad (N.of_nat (length A)) npub k) mm 0%Z m1
      (seen (fun s => leak (held (a128_lanes a) s)) (enc_in I12 K Nn (length T) ++ mac_in I12 K Nn A (isap_enc I12 K Nn T))).
Proof.
  intros Hs V. eexists. split; [|now apply ax_enc]. apply (io_enc _ _ _ _ _ (plain_ok a cf Hs)); auto. exact (locs_any mm).
Qed.

Lemma ax_dec_same a leak cf mm m mlen c ad npub k K Nn A Y : strict cf = false -> dec_valid cf cs128 mm m mlen c ad npub k K Nn A Y ->
  exists r m1,
    runs (a_dec (a128_plain a cf) m mlen c (N.of_nat (length Y)) ad (N.of_nat (length A)) npub k) mm r m1 /\
    logs (a_dec (probed_a128 a leak cf) m mlen c (N.of_nat (length Y)) ad (N.of_nat (length A)) npub k) mm r m1
      (seen (fun s => leak (held (a128_lanes a) s)) (mac_in I12 K Nn A (firstn (length Y - 16) Y) ++
         if (r =? 0)%Z then enc_in I12 K Nn (length Y - 16) else [])) /\
    (r = 0%Z <-> skipn (length Y - 16) Y = isap_mac I12 K Nn A (firstn (length Y - 16) Y)).
Proof.
  intros Hs V. do 2 eexists. split; [|split].
  - apply (io_dec _ _ _ _ _ (plain_ok a cf Hs)) with (K := K) (Nn := Nn) (A := A); auto. exact (locs_any mm).
  - pose proof (ax_dec a leak cf mm m mlen c ad npub k K Nn A Y Hs V) as P. cbv zeta in P.
    destruct (isap_decrypt I12 K Nn A Y); exact P.
  - assert (G : (16 <= length Y)%nat) by apply V.
    unfold isap_decrypt. destruct (Nat.ltb_spec (length Y) 16); [lia|].
    destruct (list_eq_dec _ _ _) as [E|E]; split; intros H1; congruence.
Qed.

Lemma ax_dec_shape a cf mm m mlen c ad npub k K Nn A Y : strict cf = false -> dec_valid cf cs128 mm m mlen c ad npub k K Nn A Y ->
  dec_shape A128 K (fun leak => a_dec (probed_a128 a leak cf) m mlen c (N.of_nat (length Y)) ad (N.of_nat (length A)) npub k)
    (fun leak s => leak (held (a128_lanes a) s)) mm Nn A Y.
Proof.
  intros Hs V. pose proof (dv_nonce _ _ _ _ _ _ _ _ _ _ _ _ _ V) as [[Bn _] Ln].
  pose proof (dv_ad _ _ _ _ _ _ _ _ _ _ _ _ _ V) as [[Ba _] _]. pose proof (dv_ct _ _ _ _ _ _ _ _ _ _ _ _ _ V) as [[By _] _].
  repeat split; auto.
  pose proof (fun leak => ax_dec a leak cf mm m mlen c ad npub k K Nn A Y Hs V) as P. cbv zeta in P.
  destruct (isap_decrypt I12 K Nn A Y); do 2 eexists; exact P.
Qed.
Lemma ax_enc_shape a cf mm c clen m ad npub k K Nn A T : strict cf = false -> enc_valid cf cs128 mm c clen m ad npub k K Nn A T ->
  enc_shape A128 K (fun leak => a_enc (probed_a128 a leak cf) c clen m (N.of_nat (length T)) ad (N.of_nat (length A)) npub k)
    (fun leak s => leak (held (a128_lanes a) s)) mm Nn A T.
Proof.
  intros Hs V. pose proof (ev_nonce _ _ _ _ _ _ _ _ _ _ _ _ _ V) as [[Bn _] Ln].
  pose proof (ev_ad _ _ _ _ _ _ _ _ _ _ _ _ _ V) as [[Ba _] _]. pose proof (ev_key _ _ _ _ _ _ _ _ _ _ _ _ _ V) as [[Bk _] Lk].
  pose proof (ev_msg _ _ _ _ _ _ _ _ _ _ _ _ _ V) as [[Bt _] _].
  repeat split; auto; [now apply v_enc_bytes|]. eexists. intros leak.
  exact (ax_enc a leak cf mm c clen m ad npub k K Nn A T Hs V).
Qed.

Lemma ax_dec_public Nn A Y : exists h, forall a cf mm m mlen c ad npub k K, strict cf = false -> dec_valid cf cs128 mm m mlen c ad npub k K Nn A Y ->
  exists R z r m1, length R = 129%nat /\
    forall leak, logs (a_dec (probed_a128 a leak cf) m mlen c (N.of_nat (length Y)) ad (N.of_nat (length A)) npub k) mm r m1
      (seen (fun s => leak (held (a128_lanes a) s)) (h ++ R ++ [z] ++ if (r =? 0)%Z then enc_in I12 K Nn (length Y - 16) else [])).
Proof.
  exists (hash_in I12 Nn A (firstn (length Y - 16) Y)). intros a cf mm m mlen c ad npub k K Hs V.
  destruct (dec_shape_parts _ _ _ _ _ _ _ _ (ax_dec_shape a cf mm m mlen c ad npub k K Nn A Y Hs V)) as (hs & z & r & m1 & L & P).
  exists (rk_in I12 K (iv_KA I12) hs), z, r, m1. split; [|exact P]. apply (rk_two I12 K (iv_KA I12) hs hs L L).
Qed.


Lemma ax_device_off cf :
  (A128Probe.isap_enc_64 a128_64 64 cf (fun _ => ret tt) = A128.isap_enc_64 a128_64 64 cf /\
   A128Probe.isap_mac_64 a128_64 64 cf (fun _ => ret tt) = A128.isap_mac_64 a128_64 64 cf) /\
  (forall a u, A128Probe.isap_enc_32 a u cf (fun _ => ret tt) = A128.isap_enc_32 a u cf /\
               A128Probe.isap_mac_32 a u cf (fun _ => ret tt) = A128.isap_mac_32 a u cf) /\
  a128_plain A64 cf = impl_a128_64 64 cf /\ a128_plain A32 cf = impl_a128_32 cf /\ a128_plain A67 cf = impl_a128_67 cf.
Proof. repeat split. Qed.
