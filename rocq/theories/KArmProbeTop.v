(* What the record of KArmProbeProof.v says about the ARM implementations of the Keccak instances. Proofs only. *)
From Verif Require Import Base SpecPerm Words KeccakProof Mem Vocab Vocab2 VocabK MemProof RefLib Trace Spec Sponge RefProof RefAead SpecFacts Api ApiProof ApiProps.
From Verif Require Import K64Impl KArmPerm KArmPermProof KArm KArmProof KArmImpl.
From Verif Require Import VocabProbe ProbeProof ProbeTop ApiProbe OptProbeTop KArmProbeProof.
From Verif Require RefIsap ApiCode KArmProbe.
Import KArmProbe(probed_karm, record).
Import Spec.
Open Scope N_scope.

Lemma kax_device_off A scr R cf :
  KArmProbe.isap_enc A scr R cf (fun _ => ret tt) = KArm.isap_enc A scr R cf /\ KArmProbe.isap_mac A scr R cf (fun _ => ret tt) = KArm.isap_mac A scr R cf.
Proof. split; reflexivity. Qed.

Lemma kax_enc_log v f scr leak cf : kv v -> regs_ok scr ->
  enc_log (csK v) (fun _ => True) (al2_long cf) (four_ok cf) (2 ^ 32) (KArmProbe.isap_enc (arm_code f) scr (k_rounds v) cf (record leak))
    (isap_enc (v_inst v)) (fun K Nn n => seen leak (enc_in (v_inst v) K Nn n)).
Proof.
  intros Hv Hs. destruct f.
  - exact (l_enc v armv6m _ scr cf leak Hv armv6m_ok armv6m_term Hs).
  - exact (l_enc v armv7m _ scr cf leak Hv armv7m_ok armv7m_term Hs).
Qed.
Lemma kax_mac_log v f scr leak cf : kv v -> regs_ok scr ->
  mac_log (csK v) (fun _ => True) (al2_long cf) (four_ok cf) (2 ^ 32) (fun n => n) (KArmProbe.isap_mac (arm_code f) scr (k_rounds v) cf (record leak))
    (isap_mac (v_inst v)) (fun K Nn A C => seen leak (mac_in (v_inst v) K Nn A C)).
Proof.
  intros Hv Hs. destruct f.
  - exact (l_mac v armv6m _ scr cf leak Hv armv6m_ok armv6m_term Hs).
  - exact (l_mac v armv7m _ scr cf leak Hv armv7m_ok armv7m_term Hs).
Qed.

Lemma kax_enc v f scr leak cf mm c clen m ad npub k K Nn A T : kv v -> regs_ok scr -> arm_call cf mm k npub ad (length A) m c (length T) ->
  enc_valid cf (csK v) mm c clen m ad npub k K Nn A T ->
  logs (a_enc (probed_karm v f scr leak cf) c clen m (N.of_nat (length T)) ad (N.of_nat (length A)) npub k) mm 0%Z
       (putp (putp mm clen (word_le 8 (N.of_nat (length T) + 16))) c (isap_encrypt (v_inst v) K Nn A T))
       (seen leak (enc_in (v_inst v) K Nn (length T) ++ mac_in (v_inst v) K Nn A (isap_enc (v_inst v) K Nn T))).
Proof.
  intros Hv Hs [[[L1 L2] Hl] (E1 & E2 & E3)] V. rewrite even_al2 in *. cbn [probed_karm a_enc]. rewrite seen_app.
  replace (seen _ (enc_in (v_inst v) K Nn (length T))) with
    (if (length T =? 0)%nat then [] else seen leak (enc_in (v_inst v) K Nn (length T))).
  2:{ unfold enc_in. now destruct (Nat.eqb_spec (length T) 0) as [E|E]. }
  apply (api_enc_logs cf (csK v) (fun _ => True) (al2_long cf) (four_ok cf) (2 ^ 32) (fun n => n) _ _
           (isap_enc (v_inst v)) (isap_mac (v_inst v))
           (fun K Nn n => seen leak (enc_in (v_inst v) K Nn n))
           (fun K Nn A C => seen leak (mac_in (v_inst v) K Nn A C))); auto using kax_enc_log, kax_mac_log.
  - apply (v_encf v).
  - apply (v_mac_macf v).
  - now apply k_ne.
  - intros; lia.
  - apply room_has. apply V.
Qed.

Lemma kax_dec v f scr leak cf mm m mlen c ad npub k K Nn A Y : kv v -> regs_ok scr -> arm_call cf mm k npub ad (length A) c m (length Y - 16)%nat ->
  dec_valid cf (csK v) mm m mlen c ad npub k K Nn A Y ->
  let I := v_inst v in
  logs (a_dec (probed_karm v f scr leak cf) m mlen c (N.of_nat (length Y)) ad (N.of_nat (length A)) npub k) mm
       (match isap_decrypt I K Nn A Y with Some _ => 0%Z | None => (-1)%Z end)
       (let m1 := putp mm mlen (word_le 8 (N.of_nat (length Y) - 16)) in
        match isap_decrypt I K Nn A Y with Some T => putp m1 m T | None => m1 end)
       (seen leak (mac_in I K Nn A (firstn (length Y - 16) Y) ++
          match isap_decrypt I K Nn A Y with Some _ => enc_in I K Nn (length Y - 16) | None => [] end)).
Proof.
  intros Hv Hs [[[L1 L2] Hl] (E1 & E2 & E3)] V I. rewrite even_al2 in *. cbn [probed_karm a_dec].
  assert (GY : (16 <= length Y)%nat /\ N.of_nat (length Y) < 2 ^ 64).
  { pose proof (dv_ct _ _ _ _ _ _ _ _ _ _ _ _ _ V). lia. }
  pose proof (api_dec_logs cf (csK v) (fun _ => True) (al2_long cf) (four_ok cf) (2 ^ 32) (fun n => n) _ _
           (isap_enc I) (isap_mac I)
           (fun K Nn n => seen leak (enc_in I K Nn n))
           (fun K Nn A C => seen leak (mac_in I K Nn A C)) (kax_enc_log v f scr leak cf Hv Hs) (kax_mac_log v f scr leak cf Hv Hs)) as G.
  specialize (G (v_encf v) (v_mac_macf v) (k_ne v Hv) ltac:(intros; lia) mm m mlen c ad npub k K Nn A Y).
  cbv zeta in G.
  unfold isap_decrypt. destruct (Nat.ltb_spec (length Y) 16) as [?|_]; [lia|].
  assert (Ez : forall b : bool, seen leak (if b then enc_in I K Nn (length Y - 16) else []) =
    if b then (if (length Y - 16 =? 0)%nat then [] else seen leak (enc_in I K Nn (length Y - 16))) else []).
  { intros [|]; [|reflexivity]. unfold enc_in. now destruct (Nat.eqb_spec (length Y - 16) 0). }
  rewrite seen_app.
  assert (Rm : room mm ad (length A)) by (apply room_has; apply V).
  destruct (list_eq_dec _ _ _) as [E|E]; cbv iota beta zeta;
    [rewrite (Ez true)|rewrite (Ez false)]; apply G; auto; try apply V; lia.
Qed.

Lemma kax_enc_same v f scr leak cf mm c clen m ad npub k K Nn A T : kv v -> regs_ok scr -> arm_call cf mm k npub ad (length A) m c (length T) ->
  enc_valid cf (csK v) mm c clen m ad npub k K Nn A T ->
  let I := v_inst v in
  exists m1,
    runs (a_enc (impl_karm v f scr cf) c clen m (N.of_nat (length T)) ad (N.of_nat (length A)) npub k) mm 0%Z m1 /\
    logs (a_enc (probed_karm v f scr leak cf) c clen m (N.of_nat (length T)) ad (N.of_nat (length A)) npub k) mm 0%Z m1
      (seen leak (enc_in I K Nn (length T) ++ mac_in I K Nn A (isap_enc I K Nn T))).
Proof.
  intros Hv Hs He V I. eexists. split; [|now apply kax_enc]. apply (ioi_enc _ _ _ _ _ (karm_correct v f scr cf Hv Hs)); auto.
Qed.

Lemma kax_dec_same v f scr leak cf mm m mlen c ad npub k K Nn A Y : kv v -> regs_ok scr -> arm_call cf mm k npub ad (length A) c m (length Y - 16)%nat ->
  dec_valid cf (csK v) mm m mlen c ad npub k K Nn A Y ->
  let I := v_inst v in
  exists r m1,
    runs (a_dec (impl_karm v f scr cf) m mlen c (N.of_nat (length Y)) ad (N.of_nat (length A)) npub k) mm r m1 /\
    logs (a_dec (probed_karm v f scr leak cf) m mlen c (N.of_nat (length Y)) ad (N.of_nat (length A)) npub k) mm r m1
      (seen leak (mac_in I K Nn A (firstn (length Y - 16) Y) ++ if (r =? 0)%Z then enc_in I K Nn (length Y - 16) else [])) /\
    (r = 0%Z <-> skipn (length Y - 16) Y = isap_mac I K Nn A (firstn (length Y - 16) Y)).
Proof.
  intros Hv Hs He V I. do 2 eexists. split; [|split].
  - apply (ioi_dec _ _ _ _ _ (karm_correct v f scr cf Hv Hs)) with (K := K) (Nn := Nn) (A := A); auto.
  - pose proof (kax_dec v f scr leak cf mm m mlen c ad npub k K Nn A Y Hv Hs He V) as P. cbv zeta in P. fold I in P |- *.
    destruct (isap_decrypt I K Nn A Y); exact P.
  - assert (G : (16 <= length Y)%nat) by apply V. fold I.
    unfold isap_decrypt. destruct (Nat.ltb_spec (length Y) 16); [lia|].
    destruct (list_eq_dec _ _ _) as [E|E]; split; intros H1; congruence.
Qed.

Lemma kax_dec_shape v f scr cf mm m mlen c ad npub k K Nn A Y : kv v -> regs_ok scr -> arm_call cf mm k npub ad (length A) c m (length Y - 16)%nat ->
  dec_valid cf (csK v) mm m mlen c ad npub k K Nn A Y ->
  dec_shape v K (fun leak => a_dec (probed_karm v f scr leak cf) m mlen c (N.of_nat (length Y)) ad (N.of_nat (length A)) npub k)
    (fun leak => leak) mm Nn A Y.
Proof.
  intros Hv Hs He V. pose proof (dv_nonce _ _ _ _ _ _ _ _ _ _ _ _ _ V) as [[Bn _] Ln].
  pose proof (dv_ad _ _ _ _ _ _ _ _ _ _ _ _ _ V) as [[Ba _] _]. pose proof (dv_ct _ _ _ _ _ _ _ _ _ _ _ _ _ V) as [[By _] _].
  repeat split; auto.
  pose proof (fun leak => kax_dec v f scr leak cf mm m mlen c ad npub k K Nn A Y Hv Hs He V) as P. cbv zeta in P.
  destruct (isap_decrypt (v_inst v) K Nn A Y); do 2 eexists; exact P.
Qed.
Lemma kax_enc_shape v f scr cf mm c clen m ad npub k K Nn A T : kv v -> regs_ok scr -> arm_call cf mm k npub ad (length A) m c (length T) ->
  enc_valid cf (csK v) mm c clen m ad npub k K Nn A T ->
  enc_shape v K (fun leak => a_enc (probed_karm v f scr leak cf) c clen m (N.of_nat (length T)) ad (N.of_nat (length A)) npub k)
    (fun leak => leak) mm Nn A T.
Proof.
  intros Hv Hs He V. pose proof (ev_nonce _ _ _ _ _ _ _ _ _ _ _ _ _ V) as [[Bn _] Ln].
  pose proof (ev_ad _ _ _ _ _ _ _ _ _ _ _ _ _ V) as [[Ba _] _]. pose proof (ev_key _ _ _ _ _ _ _ _ _ _ _ _ _ V) as [[Bk _] Lk].
  pose proof (ev_msg _ _ _ _ _ _ _ _ _ _ _ _ _ V) as [[Bt _] _].
  repeat split; auto; [now apply v_enc_bytes|]. eexists. intros leak.
  exact (kax_enc v f scr leak cf mm c clen m ad npub k K Nn A T Hv Hs He V).
Qed.

Lemma kax_dec_public v Nn A Y : kv v -> exists h, forall f scr cf mm m mlen c ad npub k K, regs_ok scr ->
  arm_call cf mm k npub ad (length A) c m (length Y - 16)%nat -> dec_valid cf (csK v) mm m mlen c ad npub k K Nn A Y ->
  exists R z r m1, length R = 129%nat /\
    forall leak, logs (a_dec (probed_karm v f scr leak cf) m mlen c (N.of_nat (length Y)) ad (N.of_nat (length A)) npub k) mm r m1
      (seen leak (h ++ R ++ [z] ++ if (r =? 0)%Z then enc_in (v_inst v) K Nn (length Y - 16) else [])).
Proof.
  intros Hv. exists (hash_in (v_inst v) Nn A (firstn (length Y - 16) Y)). intros f scr cf mm m mlen c ad npub k K Hs He V.
  destruct (dec_shape_parts _ _ _ _ _ _ _ _ (kax_dec_shape v f scr cf mm m mlen c ad npub k K Nn A Y Hv Hs He V)) as (hs & z & r & m1 & L & P).
  exists (rk_in (v_inst v) K (iv_KA (v_inst v)) hs), z, r, m1. split; [|exact P].
  apply (rk_two (v_inst v) K (iv_KA (v_inst v)) hs hs L L).
Qed.

Lemma kax_enc_two v f scr cf mm c clen m ad npub k K Nn A T f' scr' cf' mm' c' clen' m' ad' npub' k' Nn' A' T' : kv v ->
  regs_ok scr -> arm_call cf mm k npub ad (length A) m c (length T) -> enc_valid cf (csK v) mm c clen m ad npub k K Nn A T -> T <> [] ->
  regs_ok scr' -> arm_call cf' mm' k' npub' ad' (length A') m' c' (length T') -> enc_valid cf' (csK v) mm' c' clen' m' ad' npub' k' K Nn' A' T' -> T' <> [] ->
  exists Q e h R z m1 Q' e' h' R' z' m1',
    two_limited Q Q' /\ two_limited R R' /\
    (forall leak, logs (a_enc (probed_karm v f scr leak cf) c clen m (N.of_nat (length T)) ad (N.of_nat (length A)) npub k) mm 0%Z m1 (seen leak (Q ++ e ++ h ++ R ++ [z]))) /\
    (forall leak, logs (a_enc (probed_karm v f' scr' leak cf') c' clen' m' (N.of_nat (length T')) ad' (N.of_nat (length A')) npub' k') mm' 0%Z m1' (seen leak (Q' ++ e' ++ h' ++ R' ++ [z']))) /\
    length e = ((length T + 18 - 1) / 18)%nat /\ length e' = ((length T' + 18 - 1) / 18)%nat /\
    (Nn = Nn' -> length T = length T' -> Q = Q' /\ e = e').
Proof.
  intros Hv Hs He V HT Hs' He' V' HT'.
  pose proof (shape_enc_two _ K _ _ mm Nn A T _ _ mm' Nn' A' T' (kax_enc_shape v f scr cf mm c clen m ad npub k K Nn A T Hv Hs He V) HT
    (kax_enc_shape v f' scr' cf' mm' c' clen' m' ad' npub' k' K Nn' A' T' Hv Hs' He' V') HT') as G.
  destruct Hv as [-> | ->]; exact G.
Qed.
