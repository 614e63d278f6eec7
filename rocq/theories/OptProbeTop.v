(* What the record of OptProbeProof.v says about the optimised ISAP-A-128A implementations. Proofs only. *)
From Verif Require Import Base SpecPerm Words Mem Vocab Vocab2 MemProof RefLib Trace Spec Sponge RefProof RefAead SpecFacts Api ApiProof ApiProps.
From Verif Require Import OptPerm OptPermProof OptIsap OptProof OptImpl VocabProbe VocabOptProbe ProbeProof ProbeTop ApiProbe OptProbeProof.
From Verif Require RefIsap ApiCode OptProbe.
Import Spec.
Open Scope N_scope.

(* ---- Consequences of the list of states alone, for any implementation of an instance ---- *)

Section Shape.
  Variable v : variant.
  Notation I := (v_inst v).
  Variable K : list N.

  (* D leak: a decryption watched by leak, which sees a state as vw leak does. *)
  Definition dec_shape (D : (list N -> N) -> M Z) (vw : (list N -> N) -> list N -> N) mm Nn A Y : Prop :=
    length Nn = 16%nat /\ bytes Nn /\ bytes A /\ bytes Y /\
    exists r m1, forall leak, logs (D leak) mm r m1
      (seen (vw leak) (mac_in I K Nn A (firstn (length Y - 16) Y) ++ if (r =? 0)%Z then enc_in I K Nn (length Y - 16) else [])).
  Definition enc_shape (E : (list N -> N) -> M Z) (vw : (list N -> N) -> list N -> N) mm Nn A (T : list N) : Prop :=
    length Nn = 16%nat /\ bytes Nn /\ bytes A /\ bytes (isap_enc I K Nn T) /\
    exists m1, forall leak, logs (E leak) mm 0%Z m1
      (seen (vw leak) (enc_in I K Nn (length T) ++ mac_in I K Nn A (isap_enc I K Nn T))).

  Lemma dec_shape_parts D vw mm Nn A Y : dec_shape D vw mm Nn A Y ->
    exists hs z r m1, length hs = 16%nat /\
      (forall leak, logs (D leak) mm r m1 (seen (vw leak) (hash_in I Nn A (firstn (length Y - 16) Y) ++ rk_in I K (iv_KA I) hs ++ [z] ++
         if (r =? 0)%Z then enc_in I K Nn (length Y - 16) else []))).
  Proof.
    intros (Ln & Bn & Ba & By & r & m1 & P).
    set (C := firstn (length Y - 16) Y) in *. set (hs := firstn 16 (hash_end I Nn A C)).
    exists hs, (isap_rk I K (iv_KA I) hs 16 ++ skipn 16 (hash_end I Nn A C), i_sH I), r, m1. split.
    - apply hash_end_16; auto. now apply bytes_firstn.
    - intros leak. specialize (P leak). unfold mac_in in P. fold hs in P. rewrite <- !app_assoc in P. exact P.
  Qed.

  Lemma shape_dec_two D vw mm Nn A Y D' vw' mm' Nn' A' Y' :
    dec_shape D vw mm Nn A Y -> dec_shape D' vw' mm' Nn' A' Y' ->
    exists h R z e r m1 h' R' z' e' r' m1',
      two_limited R R' /\
      (forall leak, logs (D leak) mm r m1 (seen (vw leak) (h ++ R ++ [z] ++ e))) /\
      (forall leak, logs (D' leak) mm' r' m1' (seen (vw' leak) (h' ++ R' ++ [z'] ++ e'))) /\
      h = hash_in I Nn A (firstn (length Y - 16) Y) /\ h' = hash_in I Nn' A' (firstn (length Y' - 16) Y') /\
      (r <> 0%Z -> e = []) /\ (r' <> 0%Z -> e' = []).
  Proof.
    intros G G'. destruct (dec_shape_parts _ _ _ _ _ _ G) as (hs & z & r & m1 & L & P).
    destruct (dec_shape_parts _ _ _ _ _ _ G') as (hs' & z' & r' & m1' & L' & P').
    do 3 eexists. exists (if (r =? 0)%Z then enc_in I K Nn (length Y - 16) else []), r, m1.
    do 3 eexists. exists (if (r' =? 0)%Z then enc_in I K Nn' (length Y' - 16) else []), r', m1'.
    split; [exact (rk_two I K (iv_KA I) hs hs' L L')|]. split; [exact P|]. split; [exact P'|]. split; [reflexivity|]. split; [reflexivity|].
    split; intros H; now rewrite (proj2 (Z.eqb_neq _ _) H).
  Qed.

  Lemma shape_enc_two E vw mm Nn A T E' vw' mm' Nn' A' T' :
    enc_shape E vw mm Nn A T -> T <> [] -> enc_shape E' vw' mm' Nn' A' T' -> T' <> [] ->
    exists Q e h R z m1 Q' e' h' R' z' m1',
      two_limited Q Q' /\ two_limited R R' /\
      (forall leak, logs (E leak) mm 0%Z m1 (seen (vw leak) (Q ++ e ++ h ++ R ++ [z]))) /\
      (forall leak, logs (E' leak) mm' 0%Z m1' (seen (vw' leak) (Q' ++ e' ++ h' ++ R' ++ [z']))) /\
      length e = ((length T + i_rate I - 1) / i_rate I)%nat /\
      length e' = ((length T' + i_rate I - 1) / i_rate I)%nat /\
      (Nn = Nn' -> length T = length T' -> Q = Q' /\ e = e').
  Proof.
    intros G HT G' HT'.
    assert (Gen : forall E vw mm Nn A T, enc_shape E vw mm Nn A T -> T <> [] -> exists hs h z m1, length hs = 16%nat /\ length Nn = 16%nat /\
      (forall leak, logs (E leak) mm 0%Z m1
        (seen (vw leak) (rk_in I K (iv_KE I) Nn ++
           stream I (isap_rk I K (iv_KE I) Nn (i_sz I - 16) ++ Nn) ((length T + i_rate I - 1) / i_rate I) ++
           h ++ rk_in I K (iv_KA I) hs ++ [z])))).
    { clear. intros E vw mm Nn A T (Ln & Bn & Ba & Bc & m1 & P) HT.
      set (C := isap_enc I K Nn T) in *. set (hs := firstn 16 (hash_end I Nn A C)).
      exists hs, (hash_in I Nn A C), (isap_rk I K (iv_KA I) hs 16 ++ skipn 16 (hash_end I Nn A C), i_sH I), m1. split; [|split; auto].
      - now apply hash_end_16.
      - intros leak. specialize (P leak). unfold mac_in, enc_in in P. fold hs in P.
        destruct (Nat.eqb_spec (length T) 0) as [E0|E0]; [now destruct T|]. rewrite <- !app_assoc in P. exact P. }
    assert (LS : forall n s, length (stream I s n) = n).
    { clear. induction n as [|n IH]; intros s; cbn; auto. }
    destruct (Gen _ _ _ _ _ _ G HT) as (hs & h & z & m1 & L & LN & P).
    destruct (Gen _ _ _ _ _ _ G' HT') as (hs' & h' & z' & m1' & L' & LN' & P').
    do 2 eexists. exists h. eexists. exists z, m1. do 2 eexists. exists h'. eexists. exists z', m1'.
    split; [|split; [|split; [exact P|split; [exact P'|]]]].
    - now apply rk_two.
    - now apply rk_two.
    - rewrite !LS. split; [reflexivity|]. split; [reflexivity|]. intros -> ->. auto.
  Qed.
End Shape.

(* ---- The twelve implementations ---- *)

Notation IA := ISAP_A_128A.

Lemma op_enc a leak cf junk mm c clen m ad npub k K Nn A T : In a fam_opt -> length junk = 5%nat ->
  all_al8 cf [k; npub; ad; m; c] -> enc_valid cf opt_consts mm c clen m ad npub k K Nn A T ->
  logs (a_enc (OptProbe.probed_opt a leak cf junk) c clen m (N.of_nat (length T)) ad (N.of_nat (length A)) npub k) mm 0%Z
       (putp (putp mm clen (word_le 8 (N.of_nat (length T) + 16))) c (isap_encrypt IA K Nn A T))
       (seen (fun s => leak (held a s)) (enc_in IA K Nn (length T) ++ mac_in IA K Nn A (isap_enc IA K Nn T))).
Proof.
  intros Hin Hj [Hc Hp] V. destruct (fam_ok a Hin) as [f Hf].
  rewrite !Forall_cons_iff in Hp. destruct Hp as (P1 & P2 & P3 & P4 & P5 & _).
  rewrite seen_app.
  replace (seen _ (enc_in IA K Nn (length T))) with
    (if (length T =? 0)%nat then [] else seen (fun s => leak (held a s)) (enc_in IA K Nn (length T))).
  2:{ unfold enc_in. now destruct (Nat.eqb_spec (length T) 0) as [E|E]. }
  apply (api_enc_logs cf opt_consts (al8 cf) (fun p _ => al8 cf p) (fun _ => True) (2 ^ 64) (fun n => n)
           (OptProbe.isap_enc a cf junk (OptProbe.record leak)) (OptProbe.isap_mac a cf (OptProbe.record leak))
           (isap_enc IA) (isap_mac IA)
           (fun K Nn n => seen (fun s => leak (held a s)) (enc_in IA K Nn n))
           (fun K Nn A C => seen (fun s => leak (held a s)) (mac_in IA K Nn A C))); auto.
  - intros mm' k' npub' m' c'. intros. now apply (opt_enc_log f a rounds_used); cbn; auto.
  - intros mm' k' npub' ad' c' tag'. intros. now apply (opt_mac_log f a rounds_used); cbn; auto.
  - apply (v_encf A128A).
  - apply (v_mac_macf A128A).
  - exact opt_consts_ne.
  - intros; lia.
  - intros b _. exact Logic.I.
  - apply V.
  - pose proof (ev_msg _ _ _ _ _ _ _ _ _ _ _ _ _ V). lia.
  - apply room_has. apply V.
Qed.

Lemma op_dec a leak cf junk mm m mlen c ad npub k K Nn A Y : In a fam_opt -> length junk = 5%nat ->
  all_al8 cf [k; npub; ad; m; c] -> dec_valid cf opt_consts mm m mlen c ad npub k K Nn A Y ->
  logs (a_dec (OptProbe.probed_opt a leak cf junk) m mlen c (N.of_nat (length Y)) ad (N.of_nat (length A)) npub k) mm
       (match isap_decrypt IA K Nn A Y with Some _ => 0%Z | None => (-1)%Z end)
       (let m1 := putp mm mlen (word_le 8 (N.of_nat (length Y) - 16)) in
        match isap_decrypt IA K Nn A Y with Some T => putp m1 m T | None => m1 end)
       (seen (fun s => leak (held a s)) (mac_in IA K Nn A (firstn (length Y - 16) Y) ++
          match isap_decrypt IA K Nn A Y with Some _ => enc_in IA K Nn (length Y - 16) | None => [] end)).
Proof.
  intros Hin Hj [Hc Hp] V. destruct (fam_ok a Hin) as [f Hf].
  rewrite !Forall_cons_iff in Hp. destruct Hp as (P1 & P2 & P3 & P4 & P5 & _).
  assert (GY : (16 <= length Y)%nat /\ N.of_nat (length Y) < 2 ^ 64).
  { pose proof (dv_ct _ _ _ _ _ _ _ _ _ _ _ _ _ V). lia. }
  pose proof (api_dec_logs cf opt_consts (al8 cf) (fun p _ => al8 cf p) (fun _ => True) (2 ^ 64) (fun n => n)
           (OptProbe.isap_enc a cf junk (OptProbe.record leak)) (OptProbe.isap_mac a cf (OptProbe.record leak))
           (isap_enc IA) (isap_mac IA)
           (fun K Nn n => seen (fun s => leak (held a s)) (enc_in IA K Nn n))
           (fun K Nn A C => seen (fun s => leak (held a s)) (mac_in IA K Nn A C))) as G.
  specialize (fun H1 H2 => G H1 H2 (v_encf A128A) (v_mac_macf A128A) opt_consts_ne (fun n => ltac:(lia)) mm m mlen c ad npub k K Nn A Y).
  cbv zeta in G. cbn [OptProbe.probed_opt a_dec].
  unfold isap_decrypt. destruct (Nat.ltb_spec (length Y) 16) as [?|_]; [lia|].
  assert (Ez : forall b : bool, seen (fun s => leak (held a s)) (if b then enc_in IA K Nn (length Y - 16) else []) =
    if b then (if (length Y - 16 =? 0)%nat then [] else seen (fun s => leak (held a s)) (enc_in IA K Nn (length Y - 16))) else []).
  { intros [|]; [|reflexivity]. unfold enc_in. now destruct (Nat.eqb_spec (length Y - 16) 0). }
  rewrite seen_app.
  destruct (list_eq_dec _ _ _) as [E|E]; cbv iota beta zeta;
    [rewrite (Ez true)|rewrite (Ez false)]; apply G; auto;
    try (intros mm' k' npub' m' c'; intros; now apply (opt_enc_log f a rounds_used); cbn; auto);
    try (intros mm' k' npub' ad' c' tag'; intros; now apply (opt_mac_log f a rounds_used); cbn; auto);
    try apply V; try lia; try (apply room_has; apply V); intros b _; exact Logic.I.
Qed.

Lemma op_enc_same a leak cf junk mm c clen m ad npub k K Nn A T : In a fam_opt -> length junk = 5%nat ->
  all_al8 cf [k; npub; ad; m; c] -> enc_valid cf opt_consts mm c clen m ad npub k K Nn A T ->
  exists m1,
    runs (a_enc (opt_impl a cf junk) c clen m (N.of_nat (length T)) ad (N.of_nat (length A)) npub k) mm 0%Z m1 /\
    logs (a_enc (OptProbe.probed_opt a leak cf junk) c clen m (N.of_nat (length T)) ad (N.of_nat (length A)) npub k) mm 0%Z m1
      (seen (fun s => leak (held a s)) (enc_in IA K Nn (length T) ++ mac_in IA K Nn A (isap_enc IA K Nn T))).
Proof.
  intros Hin Hj Al V. eexists. split; [|now apply op_enc]. destruct Al as [Hc Hp].
  rewrite !Forall_cons_iff in Hp. destruct Hp as (P1 & P2 & P3 & P4 & P5 & _). now apply fam_aligned_enc.
Qed.

Lemma op_dec_same a leak cf junk mm m mlen c ad npub k K Nn A Y : In a fam_opt -> length junk = 5%nat ->
  all_al8 cf [k; npub; ad; m; c] -> dec_valid cf opt_consts mm m mlen c ad npub k K Nn A Y ->
  exists r m1,
    runs (a_dec (opt_impl a cf junk) m mlen c (N.of_nat (length Y)) ad (N.of_nat (length A)) npub k) mm r m1 /\
    logs (a_dec (OptProbe.probed_opt a leak cf junk) m mlen c (N.of_nat (length Y)) ad (N.of_nat (length A)) npub k) mm r m1
      (seen (fun s => leak (held a s)) (mac_in IA K Nn A (firstn (length Y - 16) Y) ++
         if (r =? 0)%Z then enc_in IA K Nn (length Y - 16) else [])) /\
    (r = 0%Z <-> skipn (length Y - 16) Y = isap_mac IA K Nn A (firstn (length Y - 16) Y)).
Proof.
  intros Hin Hj Al V. do 2 eexists. split; [|split].
  - destruct Al as [Hc Hp]. rewrite !Forall_cons_iff in Hp. destruct Hp as (P1 & P2 & P3 & P4 & P5 & _). apply fam_aligned_dec with (K := K) (Nn := Nn) (A := A); auto.
  - pose proof (op_dec a leak cf junk mm m mlen c ad npub k K Nn A Y Hin Hj Al V) as P. cbv zeta in P.
    destruct (isap_decrypt IA K Nn A Y); exact P.
  - assert (G : (16 <= length Y)%nat) by apply V.
    unfold isap_decrypt. destruct (Nat.ltb_spec (length Y) 16); [lia|].
    destruct (list_eq_dec _ _ _) as [E|E]; split; intros H1; congruence.
Qed.

Lemma op_dec_shape a cf junk mm m mlen c ad npub k K Nn A Y : In a fam_opt -> length junk = 5%nat ->
  all_al8 cf [k; npub; ad; m; c] -> dec_valid cf opt_consts mm m mlen c ad npub k K Nn A Y ->
  dec_shape A128A K (fun leak => a_dec (OptProbe.probed_opt a leak cf junk) m mlen c (N.of_nat (length Y)) ad (N.of_nat (length A)) npub k)
    (fun leak s => leak (held a s)) mm Nn A Y.
Proof.
  intros Hin Hj Al V. pose proof (dv_nonce _ _ _ _ _ _ _ _ _ _ _ _ _ V) as [[Bn _] Ln].
  pose proof (dv_ad _ _ _ _ _ _ _ _ _ _ _ _ _ V) as [[Ba _] _]. pose proof (dv_ct _ _ _ _ _ _ _ _ _ _ _ _ _ V) as [[By _] _].
  repeat split; auto.
  pose proof (fun leak => op_dec a leak cf junk mm m mlen c ad npub k K Nn A Y Hin Hj Al V) as P. cbv zeta in P.
  destruct (isap_decrypt IA K Nn A Y); do 2 eexists; exact P.
Qed.
Lemma op_enc_shape a cf junk mm c clen m ad npub k K Nn A T : In a fam_opt -> length junk = 5%nat ->
  all_al8 cf [k; npub; ad; m; c] -> enc_valid cf opt_consts mm c clen m ad npub k K Nn A T ->
  enc_shape A128A K (fun leak => a_enc (OptProbe.probed_opt a leak cf junk) c clen m (N.of_nat (length T)) ad (N.of_nat (length A)) npub k)
    (fun leak s => leak (held a s)) mm Nn A T.
Proof.
  intros Hin Hj Al V. pose proof (ev_nonce _ _ _ _ _ _ _ _ _ _ _ _ _ V) as [[Bn _] Ln].
  pose proof (ev_ad _ _ _ _ _ _ _ _ _ _ _ _ _ V) as [[Ba _] _]. pose proof (ev_key _ _ _ _ _ _ _ _ _ _ _ _ _ V) as [[Bk _] Lk].
  pose proof (ev_msg _ _ _ _ _ _ _ _ _ _ _ _ _ V) as [[Bt _] _].
  repeat split; auto; [now apply v_enc_bytes|]. eexists. intros leak.
  exact (op_enc a leak cf junk mm c clen m ad npub k K Nn A T Hin Hj Al V).
Qed.

Lemma op_dec_public Nn A Y : exists h, forall a cf junk mm m mlen c ad npub k K, In a fam_opt -> length junk = 5%nat ->
  all_al8 cf [k; npub; ad; m; c] -> dec_valid cf opt_consts mm m mlen c ad npub k K Nn A Y ->
  exists R z r m1, length R = 129%nat /\
    forall leak, logs (a_dec (OptProbe.probed_opt a leak cf junk) m mlen c (N.of_nat (length Y)) ad (N.of_nat (length A)) npub k) mm r m1
      (seen (fun s => leak (held a s)) (h ++ R ++ [z] ++ if (r =? 0)%Z then enc_in IA K Nn (length Y - 16) else [])).
Proof.
  exists (hash_in IA Nn A (firstn (length Y - 16) Y)). intros a cf junk mm m mlen c ad npub k K Hin Hj Al V.
  destruct (dec_shape_parts _ _ _ _ _ _ _ _ (op_dec_shape a cf junk mm m mlen c ad npub k K Nn A Y Hin Hj Al V)) as (hs & z & r & m1 & L & P).
  exists (rk_in IA K (iv_KA IA) hs), z, r, m1. split; [|exact P]. apply (rk_two IA K (iv_KA IA) hs hs L L).
Qed.

Lemma op_device_off a cf junk :
  OptProbe.isap_enc a cf junk (fun _ => ret tt) = OptIsap.isap_enc a cf junk /\
  OptProbe.isap_mac a cf (fun _ => ret tt) = OptIsap.isap_mac a cf.
Proof. split; reflexivity. Qed.
