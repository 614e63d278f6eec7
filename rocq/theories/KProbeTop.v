(* What the record of KProbeProof.v says about the Keccak opt_64 and avx512 implementations. Proofs only, apart from names for the instance an
   implementation computes and for the conditions of C29 and C32. *)
From Verif Require Import Base SpecPerm Words KeccakProof Mem Vocab Vocab2 VocabK MemProof RefLib Trace Spec Sponge RefProof RefAead SpecFacts Api ApiProof ApiProps.
From Verif Require Import K64Perm K64PermProof KIsap KIsapProof KAvxPerm KAvxProof K64Impl KAvxImpl.
From Verif Require Import VocabProbe ProbeProof ProbeTop ApiProbe OptProbeTop A128ProbeProof KProbeProof.
From Verif Require RefIsap ApiCode KProbe.
Import KProbe(kimpl, K64_128, K64_128a, Kavx_128a, ki_ops, ki_rounds, probed_k, plain_k, record).
Import Spec.
Open Scope N_scope.

Definition ki_v (x : kimpl) : variant := match x with K64_128 _ => K128 | _ => K128A end.
(* Uninitialised variables: right number and size, contents arbitrary. *)
Definition ki_ok (x : kimpl) : Prop :=
  match x with K64_128 scr | K64_128a scr => scr_ok scr | Kavx_128a junk scr => junk_ok junk /\ vscr_ok scr end.
(* Bytes that must exist behind the associated data. *)
Definition ki_ext (x : kimpl) : ext := match x with Kavx_128a _ _ => any_call | _ => six_more end.
Definition ki_need (x : kimpl) : nat := match x with Kavx_128a _ _ => 18 | _ => 24 end.

Lemma ki_kv x : kv (ki_v x).
Proof. destruct x; [left|right|right]; reflexivity. Qed.
Lemma ki_rnd x : ki_rounds x = k_rounds (ki_v x).
Proof. destruct x; reflexivity. Qed.
Lemma ki_device_off x cf :
  KProbe.isap_enc (ki_ops x) (ki_rounds x) cf (fun _ => ret tt) = KIsap.isap_enc (ki_ops x) (ki_rounds x) cf /\
  KProbe.isap_mac (ki_ops x) (ki_rounds x) cf (fun _ => ret tt) = KIsap.isap_mac (ki_ops x) (ki_rounds x) cf.
Proof. split; reflexivity. Qed.
Lemma ki_plain cf : (forall scr, plain_k (K64_128 scr) cf = impl_k64 K128 scr cf) /\ (forall scr, plain_k (K64_128a scr) cf = impl_k64 K128A scr cf) /\
  (forall junk scr, plain_k (Kavx_128a junk scr) cf = impl_kavx junk scr cf).
Proof. repeat split. Qed.

Lemma silent_lo16 cf p : silent (load_lo16 cf p).
Proof.
  unfold load_lo16. destruct (aligned cf p 8); [|apply silent_fail]. apply silent_bind; [apply silent_rd|]. intros _ s a s' E.
  destruct (inside (smem s) (padd p 7)); [|discriminate]. exact (silent_loads_ 2 p s a s' E).
Qed.
Lemma silent_k64_store cf s i n p : silent (k64_store cf s i n p).
Proof. apply silent_store_lanes. Qed.
Lemma silent_mask_load n p : silent (mask_load n p).
Proof. apply silent_bind; [apply silent_rd|]. intros. apply silent_loads_. Qed.
Lemma silent_mask_store bs p : silent (mask_store bs p).
Proof. apply silent_bind; [apply silent_wr|]. intros. apply silent_stores_. Qed.
Lemma ki_silent x cf : kops_silent cf (ki_ops x).
Proof.
  assert (G : forall scr, kops_silent cf (k64_ops scr)).
  { intros scr. constructor; intros; cbn [k64_ops k_init k_perm k_load_src k_load_m k_out k_store16 k_load16];
      unfold k64_load_src, k64_load_m, k64_out; repeat first [apply silent_lo16|apply silent_k64_store|apply silent_load_lanes|progress sil].
    apply (silent_pure (fun z => k64_perm (scr z) r s)). }
  destruct x as [scr|scr|junk scr]; [apply G|apply G|].
  constructor; intros; cbn [ki_ops kavx_ops k_init k_perm k_load_src k_load_m k_out k_store16 k_load16];
    repeat first [apply silent_mask_load|apply silent_mask_store|progress sil].
  - apply (silent_pure (fun z => of_lanes ws ++ junk (smem z))).
  - apply (silent_pure (fun z => kavx_perm (scr z) r s)).
Qed.

Lemma ki_slk x n : (slk (ki_need x) n <= n + 16)%nat.
Proof. unfold slk. destruct x; cbn [ki_need]; destruct (n <? 18)%nat; lia. Qed.
Lemma ki_room x mm ad A k npub m c n : has mm ad A -> ki_ext x mm k npub ad (length A) m c n -> room mm ad (slk (ki_need x) (length A)).
Proof.
  intros H E. destruct x; cbn [ki_need]; [now apply six_slk|now apply six_slk|].
  intros i Hi. apply (room_has _ _ _ H). revert Hi. unfold slk. destruct (Nat.ltb_spec (length A) 18); lia.
Qed.

Section Logs.
  Variables (x : kimpl) (leak : list N -> N) (cf : cfg).
  Hypothesis Hx : ki_ok x.
  Hypothesis Hlax : strict cf = false.
  Notation v := (ki_v x).
  Notation I := (v_inst v).
  Notation sn := (seen leak).
  Lemma kx_logs : exists L kpf, kops_ok L (ki_need x) k64_r cf (ki_ops x) kpf.
  Proof.
    destruct x as [scr|scr|junk scr]; [exists 50%nat, kp|exists 50%nat, kp|exists 64%nat, kavx_p].
    - now apply k64_ops_ok.
    - now apply k64_ops_ok.
    - destruct Hx. now apply kavx_ops_ok.
  Qed.
  Lemma kx_enc_log : enc_log (csK v) (fun _ => True) (fun _ _ => True) no_cond (2 ^ 64)
    (KProbe.isap_enc (ki_ops x) (ki_rounds x) cf (record leak)) (isap_enc I) (fun K Nn n => sn (enc_in I K Nn n)).
  Proof.
    destruct kx_logs as (L & kpf & Ho). pose proof (ki_kv x) as Hv. rewrite k_consts, ki_rnd by auto. destruct (k_inst v Hv) as (Hsz & Hra & Hp).
    destruct (k_rnd v k64_r Hv) as (HH & HB & HE & HK); try (unfold k64_r; tauto).
    exact (l_enc v (k_rounds v) L (ki_need x) k64_r cf _ kpf leak Ho (ki_silent x cf) Hlax Hsz Hra Hp HH HB HE HK (k_iv v Hv)).
  Qed.
  Lemma kx_mac_log : mac_log (csK v) (fun _ => True) (fun _ _ => True) no_cond (2 ^ 64) (slk (ki_need x))
    (KProbe.isap_mac (ki_ops x) (ki_rounds x) cf (record leak)) (isap_mac I) (fun K Nn A C => sn (mac_in I K Nn A C)).
  Proof.
    destruct kx_logs as (L & kpf & Ho). pose proof (ki_kv x) as Hv. rewrite k_consts, ki_rnd by auto. destruct (k_inst v Hv) as (Hsz & Hra & Hp).
    destruct (k_rnd v k64_r Hv) as (HH & HB & HE & HK); try (unfold k64_r; tauto).
    exact (l_mac v (k_rounds v) L (ki_need x) k64_r cf _ kpf leak Ho (ki_silent x cf) Hlax Hsz Hra Hp HH HB HE HK (k_iv v Hv)).
  Qed.
End Logs.

Lemma kx_plain_ok x cf : ki_ok x -> strict cf = false -> impl_ok_if (v_inst (ki_v x)) cf (csK (ki_v x)) (ki_ext x) (plain_k x cf).
Proof.
  intros Hx Hs. destruct x as [scr|scr|junk scr].
  - apply (k64_correct K128 scr cf); auto. now left.
  - apply (k64_correct K128A scr cf); auto. now right.
  - destruct Hx as [Hj Hr]. pose proof (kavx_correct junk scr cf Hj Hr Hs) as H. constructor; intros.
    + apply (io_enc _ _ _ _ _ H); auto; exact Logic.I.
    + apply (io_dec _ _ _ _ _ H); auto; exact Logic.I.
Qed.

Lemma kx_enc x leak cf mm c clen m ad npub k K Nn A T : ki_ok x -> strict cf = false -> ki_ext x mm k npub ad (length A) m c (length T) ->
  enc_valid cf (csK (ki_v x)) mm c clen m ad npub k K Nn A T ->
  logs (a_enc (probed_k x leak cf) c clen m (N.of_nat (length T)) ad (N.of_nat (length A)) npub k) mm 0%Z
       (putp (putp mm clen (word_le 8 (N.of_nat (length T) + 16))) c (isap_encrypt (v_inst (ki_v x)) K Nn A T))
       (seen leak (enc_in (v_inst (ki_v x)) K Nn (length T) ++ mac_in (v_inst (ki_v x)) K Nn A (isap_enc (v_inst (ki_v x)) K Nn T))).
Proof.
  intros Hx Hs He V. set (v := ki_v x) in *. cbn [probed_k a_enc]. rewrite seen_app.
  replace (seen _ (enc_in (v_inst v) K Nn (length T))) with
    (if (length T =? 0)%nat then [] else seen leak (enc_in (v_inst v) K Nn (length T))).
  2:{ unfold enc_in. now destruct (Nat.eqb_spec (length T) 0) as [E|E]. }
  apply (api_enc_logs cf (csK v) (fun _ => True) (fun _ _ => True) no_cond (2 ^ 64) (slk (ki_need x)) _ _
           (isap_enc (v_inst v)) (isap_mac (v_inst v))
           (fun K Nn n => seen leak (enc_in (v_inst v) K Nn n))
           (fun K Nn A C => seen leak (mac_in (v_inst v) K Nn A C))); auto.
  - now apply kx_enc_log.
  - now apply kx_mac_log.
  - apply (v_encf v).
  - apply (v_mac_macf v).
  - apply k_ne, ki_kv.
  - apply ki_slk.
  - intros b _. exact Logic.I.
  - apply V.
  - pose proof (ev_msg _ _ _ _ _ _ _ _ _ _ _ _ _ V). lia.
  - eapply ki_room; [apply V|exact He].
Qed.

Lemma kx_dec x leak cf mm m mlen c ad npub k K Nn A Y : ki_ok x -> strict cf = false -> ki_ext x mm k npub ad (length A) c m (length Y - 16)%nat ->
  dec_valid cf (csK (ki_v x)) mm m mlen c ad npub k K Nn A Y ->
  let I := v_inst (ki_v x) in
  logs (a_dec (probed_k x leak cf) m mlen c (N.of_nat (length Y)) ad (N.of_nat (length A)) npub k) mm
       (match isap_decrypt I K Nn A Y with Some _ => 0%Z | None => (-1)%Z end)
       (let m1 := putp mm mlen (word_le 8 (N.of_nat (length Y) - 16)) in
        match isap_decrypt I K Nn A Y with Some T => putp m1 m T | None => m1 end)
       (seen leak (mac_in I K Nn A (firstn (length Y - 16) Y) ++
          match isap_decrypt I K Nn A Y with Some _ => enc_in I K Nn (length Y - 16) | None => [] end)).
Proof.
  intros Hx Hs He V I. set (v := ki_v x) in *. cbn [probed_k a_dec].
  assert (GY : (16 <= length Y)%nat /\ N.of_nat (length Y) < 2 ^ 64).
  { pose proof (dv_ct _ _ _ _ _ _ _ _ _ _ _ _ _ V). lia. }
  pose proof (api_dec_logs cf (csK v) (fun _ => True) (fun _ _ => True) no_cond (2 ^ 64) (slk (ki_need x)) _ _
           (isap_enc I) (isap_mac I)
           (fun K Nn n => seen leak (enc_in I K Nn n))
           (fun K Nn A C => seen leak (mac_in I K Nn A C)) (kx_enc_log x leak cf Hx Hs) (kx_mac_log x leak cf Hx Hs)) as G.
  specialize (G (v_encf v) (v_mac_macf v) (k_ne v (ki_kv x)) (ki_slk x) mm m mlen c ad npub k K Nn A Y).
  cbv zeta in G.
  unfold isap_decrypt. destruct (Nat.ltb_spec (length Y) 16) as [?|_]; [lia|].
  assert (Ez : forall b : bool, seen leak (if b then enc_in I K Nn (length Y - 16) else []) =
    if b then (if (length Y - 16 =? 0)%nat then [] else seen leak (enc_in I K Nn (length Y - 16))) else []).
  { intros [|]; [|reflexivity]. unfold enc_in. now destruct (Nat.eqb_spec (length Y - 16) 0). }
  rewrite seen_app.
  assert (Rm : room mm ad (slk (ki_need x) (length A))) by (eapply ki_room; [apply V|exact He]).
  destruct (list_eq_dec _ _ _) as [E|E]; cbv iota beta zeta;
    [rewrite (Ez true)|rewrite (Ez false)]; apply G; auto; try (intros b _; exact Logic.I); try apply V; lia.
Qed.

Lemma kx_enc_same x leak cf mm c clen m ad npub k K Nn A T : ki_ok x -> strict cf = false -> ki_ext x mm k npub ad (length A) m c (length T) ->
  enc_valid cf (csK (ki_v x)) mm c clen m ad npub k K Nn A T ->
  let I := v_inst (ki_v x) in
  exists m1,
    runs (a_enc (plain_k x cf) c clen m (N.of_nat (length T)) ad (N.of_nat (length A)) npub k) mm 0%Z m1 /\
    logs (a_enc (probed_k x leak cf) c clen m (N.of_nat (length T)) ad (N.of_nat (length A)) npub k) mm 0%Z m1
      (seen leak (enc_in I K Nn (length T) ++ mac_in I K Nn A (isap_enc I K Nn T))).
Proof.
  intros Hx Hs He V I. eexists. split; [|now apply kx_enc]. apply (ioi_enc _ _ _ _ _ (kx_plain_ok x cf Hx Hs)); auto.
Qed.

Lemma kx_dec_same x leak cf mm m mlen c ad npub k K Nn A Y : ki_ok x -> strict cf = false -> ki_ext x mm k npub ad (length A) c m (length Y - 16)%nat ->
  dec_valid cf (csK (ki_v x)) mm m mlen c ad npub k K Nn A Y ->
  let I := v_inst (ki_v x) in
  exists r m1,
    runs (a_dec (plain_k x cf) m mlen c (N.of_nat (length Y)) ad (N.of_nat (length A)) npub k) mm r m1 /\
    logs (a_dec (probed_k x leak cf) m mlen c (N.of_nat (length Y)) ad (N.of_nat (length A)) npub k) mm r m1
      (seen leak (mac_in I K Nn A (firstn (length Y - 16) Y) ++ if (r =? 0)%Z then enc_in I K Nn (length Y - 16) else [])) /\
    (r = 0%Z <-> skipn (length Y - 16) Y = isap_mac I K Nn A (firstn (length Y - 16) Y)).
Proof.
  intros Hx Hs He V I. do 2 eexists. split; [|split].
  - apply (ioi_dec _ _ _ _ _ (kx_plain_ok x cf Hx Hs)) with (K := K) (Nn := Nn) (A := A); auto.
  - pose proof (kx_dec x leak cf mm m mlen c ad npub k K Nn A Y Hx Hs He V) as P. cbv zeta in P. fold I in P |- *.
    destruct (isap_decrypt I K Nn A Y); exact P.
  - assert (G : (16 <= length Y)%nat) by apply V. fold I.
    unfold isap_decrypt. destruct (Nat.ltb_spec (length Y) 16); [lia|].
    destruct (list_eq_dec _ _ _) as [E|E]; split; intros H1; congruence.
Qed.

Lemma kx_dec_shape x cf mm m mlen c ad npub k K Nn A Y : ki_ok x -> strict cf = false -> ki_ext x mm k npub ad (length A) c m (length Y - 16)%nat ->
  dec_valid cf (csK (ki_v x)) mm m mlen c ad npub k K Nn A Y ->
  dec_shape (ki_v x) K (fun leak => a_dec (probed_k x leak cf) m mlen c (N.of_nat (length Y)) ad (N.of_nat (length A)) npub k)
    (fun leak => leak) mm Nn A Y.
Proof.
  intros Hx Hs He V. pose proof (dv_nonce _ _ _ _ _ _ _ _ _ _ _ _ _ V) as [[Bn _] Ln].
  pose proof (dv_ad _ _ _ _ _ _ _ _ _ _ _ _ _ V) as [[Ba _] _]. pose proof (dv_ct _ _ _ _ _ _ _ _ _ _ _ _ _ V) as [[By _] _].
  repeat split; auto.
  pose proof (fun leak => kx_dec x leak cf mm m mlen c ad npub k K Nn A Y Hx Hs He V) as P. cbv zeta in P.
  destruct (isap_decrypt (v_inst (ki_v x)) K Nn A Y); do 2 eexists; exact P.
Qed.
Lemma kx_enc_shape x cf mm c clen m ad npub k K Nn A T : ki_ok x -> strict cf = false -> ki_ext x mm k npub ad (length A) m c (length T) ->
  enc_valid cf (csK (ki_v x)) mm c clen m ad npub k K Nn A T ->
  enc_shape (ki_v x) K (fun leak => a_enc (probed_k x leak cf) c clen m (N.of_nat (length T)) ad (N.of_nat (length A)) npub k)
    (fun leak => leak) mm Nn A T.
Proof.
  intros Hx Hs He V. pose proof (ev_nonce _ _ _ _ _ _ _ _ _ _ _ _ _ V) as [[Bn _] Ln].
  pose proof (ev_ad _ _ _ _ _ _ _ _ _ _ _ _ _ V) as [[Ba _] _]. pose proof (ev_key _ _ _ _ _ _ _ _ _ _ _ _ _ V) as [[Bk _] Lk].
  pose proof (ev_msg _ _ _ _ _ _ _ _ _ _ _ _ _ V) as [[Bt _] _].
  repeat split; auto; [now apply v_enc_bytes|]. eexists. intros leak.
  exact (kx_enc x leak cf mm c clen m ad npub k K Nn A T Hx Hs He V).
Qed.

Lemma kx_dec_public w Nn A Y : exists h, forall x cf mm m mlen c ad npub k K, ki_v x = w -> ki_ok x -> strict cf = false ->
  ki_ext x mm k npub ad (length A) c m (length Y - 16)%nat -> dec_valid cf (csK w) mm m mlen c ad npub k K Nn A Y ->
  exists R z r m1, length R = 129%nat /\
    forall leak, logs (a_dec (probed_k x leak cf) m mlen c (N.of_nat (length Y)) ad (N.of_nat (length A)) npub k) mm r m1
      (seen leak (h ++ R ++ [z] ++ if (r =? 0)%Z then enc_in (v_inst w) K Nn (length Y - 16) else [])).
Proof.
  exists (hash_in (v_inst w) Nn A (firstn (length Y - 16) Y)). intros x cf mm m mlen c ad npub k K <- Hx Hs He V.
  destruct (dec_shape_parts _ _ _ _ _ _ _ _ (kx_dec_shape x cf mm m mlen c ad npub k K Nn A Y Hx Hs He V)) as (hs & z & r & m1 & L & P).
  exists (rk_in (v_inst (ki_v x)) K (iv_KA (v_inst (ki_v x))) hs), z, r, m1. split; [|exact P].
  apply (rk_two (v_inst (ki_v x)) K (iv_KA (v_inst (ki_v x))) hs hs L L).
Qed.

Lemma kx_dec_two w x cf mm m mlen c ad npub k K Nn A Y x' cf' mm' m' mlen' c' ad' npub' k' Nn' A' Y' :
  ki_v x = w -> ki_ok x -> strict cf = false -> ki_ext x mm k npub ad (length A) c m (length Y - 16)%nat ->
  dec_valid cf (csK w) mm m mlen c ad npub k K Nn A Y ->
  ki_v x' = w -> ki_ok x' -> strict cf' = false -> ki_ext x' mm' k' npub' ad' (length A') c' m' (length Y' - 16)%nat ->
  dec_valid cf' (csK w) mm' m' mlen' c' ad' npub' k' K Nn' A' Y' ->
  exists h R z e r m1 h' R' z' e' r' m1',
    two_limited R R' /\
    (forall leak, logs (a_dec (probed_k x leak cf) m mlen c (N.of_nat (length Y)) ad (N.of_nat (length A)) npub k) mm r m1 (seen leak (h ++ R ++ [z] ++ e))) /\
    (forall leak, logs (a_dec (probed_k x' leak cf') m' mlen' c' (N.of_nat (length Y')) ad' (N.of_nat (length A')) npub' k') mm' r' m1' (seen leak (h' ++ R' ++ [z'] ++ e'))) /\
    h = hash_in (v_inst w) Nn A (firstn (length Y - 16) Y) /\ h' = hash_in (v_inst w) Nn' A' (firstn (length Y' - 16) Y') /\
    (r <> 0%Z -> e = []) /\ (r' <> 0%Z -> e' = []).
Proof.
  intros E Hx Hs He V E' Hx' Hs' He' V'. subst w. rewrite <- E' in V'.
  pose proof (kx_dec_shape x' cf' mm' m' mlen' c' ad' npub' k' K Nn' A' Y' Hx' Hs' He' V') as S'. rewrite E' in S'.
  exact (shape_dec_two _ K _ _ mm Nn A Y _ _ mm' Nn' A' Y' (kx_dec_shape x cf mm m mlen c ad npub k K Nn A Y Hx Hs He V) S').
Qed.
Lemma kx_enc_two w x cf mm c clen m ad npub k K Nn A T x' cf' mm' c' clen' m' ad' npub' k' Nn' A' T' :
  ki_v x = w -> ki_ok x -> strict cf = false -> ki_ext x mm k npub ad (length A) m c (length T) ->
  enc_valid cf (csK w) mm c clen m ad npub k K Nn A T -> T <> [] ->
  ki_v x' = w -> ki_ok x' -> strict cf' = false -> ki_ext x' mm' k' npub' ad' (length A') m' c' (length T') ->
  enc_valid cf' (csK w) mm' c' clen' m' ad' npub' k' K Nn' A' T' -> T' <> [] ->
  exists Q e h R z m1 Q' e' h' R' z' m1',
    two_limited Q Q' /\ two_limited R R' /\
    (forall leak, logs (a_enc (probed_k x leak cf) c clen m (N.of_nat (length T)) ad (N.of_nat (length A)) npub k) mm 0%Z m1 (seen leak (Q ++ e ++ h ++ R ++ [z]))) /\
    (forall leak, logs (a_enc (probed_k x' leak cf') c' clen' m' (N.of_nat (length T')) ad' (N.of_nat (length A')) npub' k') mm' 0%Z m1' (seen leak (Q' ++ e' ++ h' ++ R' ++ [z']))) /\
    length e = ((length T + 18 - 1) / 18)%nat /\ length e' = ((length T' + 18 - 1) / 18)%nat /\
    (Nn = Nn' -> length T = length T' -> Q = Q' /\ e = e').
Proof.
  intros E Hx Hs He V HT E' Hx' Hs' He' V' HT'. subst w. rewrite <- E' in V'.
  pose proof (kx_enc_shape x' cf' mm' c' clen' m' ad' npub' k' K Nn' A' T' Hx' Hs' He' V') as S'. rewrite E' in S'.
  pose proof (shape_enc_two _ K _ _ mm Nn A T _ _ mm' Nn' A' T' (kx_enc_shape x cf mm c clen m ad npub k K Nn A T Hx Hs He V) HT S' HT') as G.
  destruct x; exact G.
Qed.
