(* Traces of the functions of KIsap.v (isapk opt_64 and avx512). Proofs only. *)
From Verif Require Import Base Prog SpecPerm Words Mem Vocab MemProof RefLib KRound K64Perm KAvxPerm KIsap KIsapProof K64Impl KAvxImpl Trace Ct OptCt.
From Verif Require Spec RefIsap.
Import RefIsap(CRYPTO_KEYBYTES, CRYPTO_NPUBBYTES, load_lanes, store_lanes).
Open Scope N_scope.
Open Scope cm_scope.

Lemma xor_at_length s off b : length (xor_at s off b) = length s.
Proof. now rewrite xor_at_off, xorp_length. Qed.

Lemma ct_load_lanes cf n : forall p, ct [] (fun a b => length a = n /\ length b = n) (load_lanes cf n p) (load_lanes cf n p).
Proof.
  induction n as [|n IH]; intros p; [now apply ct_ret|]. cbn [load_lanes].
  eapply ct_bind0; [apply ct_loadn|]. intros ? ? _. eapply ct_bind0; [apply IH|]. intros x y [H1 H2]. apply ct_ret. cbn [length]. auto.
Qed.
Lemma ct_store_lanes cf ws : forall ws' p, length ws = length ws' -> ct [] eq (store_lanes cf ws p) (store_lanes cf ws' p).
Proof.
  induction ws as [|w ws IH]; intros [|w' ws'] p H; try discriminate; cbn [store_lanes]; [now apply ct_ret|].
  eapply ct_bind0; [apply ct_storen; now rewrite !word_le_length|]. intros ? ? _. apply IH. now injection H.
Qed.

(* Pure steps that may look at the state of the machine. *)
Lemma ct_pure {A} (R : A -> A -> Prop) (f g : st -> A) : (forall z z', R (f z) (g z')) -> ct [] R (fun z => Ok (f z) z) (fun z => Ok (g z) z).
Proof. intros H m1 m2 t a s1 b s2 L E1 E2. injection E1 as <- <-. injection E2 as <- <-. exists []. cbn [smem strc app perms]. auto 6. Qed.

Definition lens (L : nat) (s s' : list N) : Prop := length s = L /\ length s' = L.

Record kops_ct (cf : cfg) (L : nat) (o : kops) : Prop := {
  kc_L : (18 <= L)%nat;
  kc_init : forall ws ws', length ws = 25%nat -> length ws' = 25%nat -> ct [] (lens L) (k_init o ws) (k_init o ws');
  kc_perm : forall r s s', lens L s s' -> ct [] (lens L) (k_perm o r s) (k_perm o r s');
  kc_src : forall p, ct [] any (k_load_src o cf p) (k_load_src o cf p);
  kc_m : forall p, ct [] any (k_load_m o cf p) (k_load_m o cf p);
  kc_bit : forall s x, length (k_bit o s x) = length s;
  kc_dom : forall s, length (k_dom o s) = length s;
  kc_out : forall s s' p x, lens L s s' -> ct [] any (k_out o cf s p x) (k_out o cf s' p x);
  kc_st16 : forall s s' p, lens L s s' -> ct [] any (k_store16 o cf s p) (k_store16 o cf s' p);
  kc_ld16 : forall p, ct [] (lens 16) (k_load16 o cf p) (k_load16 o cf p) }.

Section K.
  Variables (o : kops) (R : krounds) (cf : cfg) (L : nat).
  Hypothesis Ho : kops_ct cf L o.

  Lemma ct_permute r s s' : lens L s s' -> ct [r] (lens L) (permute o r s) (permute o r s').
  Proof. intros H. eapply (ct_bind [r] []); [apply (ct_emit (EPerm r))|]. intros ? ? _. now apply (kc_perm _ _ _ Ho). Qed.
  Lemma lens_xor s s' i b b' : lens L s s' -> lens L (xor_at s i b) (xor_at s' i b').
  Proof. intros [H1 H2]. split; now rewrite xor_at_length. Qed.

  Definition k_at (len : N) (k : nat) (x y : list N * N * N) : Prop :=
    lens L (fst (fst x)) (fst (fst y)) /\ snd (fst x) = snd (fst y) /\ snd x = len - 18 * N.of_nat k /\ snd y = len - 18 * N.of_nat k.
  Lemma sub64_18 n k : n < 2 ^ 64 -> 18 * (N.of_nat k + 1) <= n -> sub64 (n - 18 * N.of_nat k) 18 = n - 18 * N.of_nat (S k).
  Proof. intros H1 H2. unfold sub64. replace (n - 18 * N.of_nat k + 2 ^ 64 - 18) with (n - 18 * N.of_nat (S k) + 1 * 2 ^ 64) by lia.
    rewrite N.mod_add by lia. apply N.mod_small. lia. Qed.
  Lemma before_last18 n : let q := ((n - 1) / 18)%nat in (18 * q <= n)%nat /\ (n <= 18 * q + 18)%nat /\ (18 * q = n -> n = 0)%nat /\
    (forall k, (k <= q)%nat -> (18 <? N.of_nat n - 18 * N.of_nat k)%N = (k <? q)%nat).
  Proof.
    cbv zeta. assert (H : ((n - 1) / 18 = (n - 1) / 18)%nat) by reflexivity. revert H. generalize ((n - 1) / 18)%nat at 1 3. intros q Hq.
    pose proof (Nat.div_mod (n - 1) 18 ltac:(lia)). pose proof (Nat.mod_upper_bound (n - 1) 18 ltac:(lia)).
    repeat split; try lia.
  Qed.

  Lemma ct_ABSORB_MAC s s' src n : N.of_nat n < 2 ^ 64 -> lens L s s' ->
    ct (repeat (krH R) (n / 18 + 1)) (lens L) (ABSORB_MAC o R cf s src (N.of_nat n)) (ABSORB_MAC o R cf s' src (N.of_nat n)).
  Proof.
    intros Hn Hs. destruct (before_last18 n) as (B1 & B2 & B3 & B4). set (q := ((n - 1) / 18)%nat) in *.
    assert (E8 : (n / 18 + 1 = q + (if (N.of_nat n - 18 * N.of_nat q =? 18)%N then 2 else 1))%nat).
    { destruct (N.of_nat n - 18 * N.of_nat q =? 18) eqn:E.
      - replace (n / 18)%nat with (q + 1)%nat; [lia|]. apply (Nat.div_unique _ _ _ 0); lia.
      - replace (n / 18)%nat with q; [lia|]. apply (Nat.div_unique _ _ _ (n - 18 * q)); lia. }
    eapply ct_eq.
    - unfold ABSORB_MAC. eapply ct_bind.
      + apply (ct_while0 (k_at (N.of_nat n)) [krH R] _ _ _ q).
        * intros k [[x ix] lx] [[y iy] ly] Hk (_ & _ & E1 & E2). cbn [fst snd] in *. subst lx ly. rewrite B4 by auto. auto.
        * intros k [[x ix] lx] [[y iy] ly] Hk (HL & P1 & E1 & E2). cbn [fst snd] in *. subst iy lx ly.
          unfold absorb_full. eapply ct_bind0; [apply (kc_src _ _ _ Ho)|]. intros t t' _.
          eapply (ct_bind [krH R] []); [apply ct_permute; now apply lens_xor|]. intros z z' Hz. apply ct_ret. unfold k_at. cbn [fst snd].
          rewrite sub64_18 by lia. auto.
        * unfold k_at. cbn [fst snd]. change (18 * N.of_nat 0) with 0. rewrite N.sub_0_r. auto.
      + intros [[x ix] lx] [[y iy] ly] (HL & P1 & E1 & E2). cbn [fst snd] in *. subst iy lx ly.
        apply (ct_if (repeat (krH R) (if N.of_nat n - 18 * N.of_nat q =? 18 then 2 else 1))); intros ->.
        * eapply ct_bind0; [apply (kc_src _ _ _ Ho)|]. intros t t' _.
          eapply (ct_bind [krH R] [krH R]); [apply ct_permute; now apply lens_xor|]. intros z z' Hz. apply ct_permute. now apply lens_xor.
        * eapply ct_bind0.
          -- apply (ct_for_silent (fun x y => lens L (fst x) (fst y) /\ snd x = snd y)); auto.
             intros i [t p] [t' p'] [H E]. cbn [fst snd] in *. subst p'. apply (ct_if []); intros _.
             ++ eapply ct_bind0; [apply ct_load|]. intros. apply ct_ret. cbn [fst snd]. split; auto. now apply lens_xor.
             ++ apply (ct_if []); intros _; apply ct_ret; cbn [fst snd]; split; auto. now apply lens_xor.
          -- intros [t p] [t' p'] [H E]. now apply ct_permute.
    - rewrite E8, concat_repeat1. symmetry. apply repeat_app.
  Qed.

  Notation rk := (krK R :: repeat (krB R) 127 ++ [krK R]).
  Lemma ct_isap_rk k iv y out outlen : ct rk any (isap_rk o R cf k iv y 16 out outlen) (isap_rk o R cf k iv y 16 out outlen).
  Proof.
    unfold isap_rk. eapply ct_bind0; [apply ct_load_lanes|]. intros x x' [X1 X2]. eapply ct_bind0; [apply ct_load_lanes|]. intros w w' [W1 W2].
    eapply ct_bind0; [apply (kc_init _ _ _ Ho); rewrite !app_length, repeat_length; lia|]. intros s s' Hs.
    change (krK R :: repeat (krB R) 127 ++ [krK R]) with ([krK R] ++ repeat (krB R) 127 ++ [krK R]).
    eapply ct_bind; [now apply ct_permute|]. intros z z' Hz. eapply ct_bind.
    - apply (ct_for1 (lens L) (krB R) 127); [reflexivity| |exact Hz]. intros i t t' [T1 T2].
      eapply ct_bind0; [apply ct_load|]. intros. apply ct_permute. split; now rewrite (kc_bit _ _ _ Ho).
    - intros t t' [T1 T2]. eapply ct_bind0; [apply ct_load|]. intros ? ? _.
      eapply (ct_bind [krK R] []); [apply ct_permute; split; now rewrite (kc_bit _ _ _ Ho)|]. intros u u' Hu. now apply (kc_out _ _ _ Ho).
  Qed.

  Lemma ct_iv1 i : ct [] any (iv1_pair i) (iv1_pair i).
  Proof. do 2 (eapply ct_bind0; [apply ct_load|]; intros ? ? _). now apply ct_ret. Qed.

  Lemma ct_isap_mac k npub ad (x : nat) c (n : nat) tag : N.of_nat x < 2 ^ 64 -> N.of_nat n < 2 ^ 64 ->
    ct (repeat (krH R) (x / 18 + n / 18 + 3) ++ rk ++ [krH R]) any
       (isap_mac o R cf k npub ad (N.of_nat x) c (N.of_nat n) tag) (isap_mac o R cf k npub ad (N.of_nat x) c (N.of_nat n) tag).
  Proof.
    intros Hx Hn. eapply ct_eq.
    - unfold isap_mac. eapply ct_bind0; [apply ct_load_lanes|]. intros b b' [B1 B2].
      do 4 (eapply ct_bind0; [apply ct_iv1|]; intros ? ? _).
      eapply ct_bind0; [apply (kc_init _ _ _ Ho); rewrite !app_length, repeat_length; cbn [length]; lia|]. intros s s' Hs.
      eapply (ct_bind (repeat (krH R) 1)); [now apply ct_permute|]. intros z z' Hz.
      eapply ct_bind; [now apply ct_ABSORB_MAC|]. intros w w' [W1 W2].
      eapply ct_bind; [apply ct_ABSORB_MAC; [auto|split; now rewrite (kc_dom _ _ _ Ho)]|]. intros u u' Hu.
      apply ct_with_block. intros y. eapply ct_bind0; [now apply (kc_st16 _ _ _ Ho)|]. intros ? ? _.
      eapply ct_bind; [apply ct_isap_rk|]. intros ? ? _. eapply ct_bind0; [apply (kc_ld16 _ _ _ Ho)|]. intros e e' [E1 E2].
      eapply (ct_bind [krH R] []).
      + apply ct_permute. pose proof (kc_L _ _ _ Ho). destruct Hu as [U1 U2]. split; rewrite app_length, skipn_length; lia.
      + intros f f' Hf. now apply (kc_st16 _ _ _ Ho).
    - replace (x / 18 + n / 18 + 3)%nat with (1 + ((x / 18 + 1) + (n / 18 + 1)))%nat by lia. rewrite !repeat_app, <- !app_assoc. reflexivity.
  Qed.

  Lemma ct_squeeze s s' m c idx : lens L s s' -> ct [] any (squeeze_lane o cf s m c idx) (squeeze_lane o cf s' m c idx).
  Proof.
    intros [H1 H2]. unfold squeeze_lane. eapply ct_bind0; [apply (kc_m _ _ _ Ho)|]. intros ? ? _.
    eapply ct_bind0; [apply (ct_emit (EWr (padd c idx) 18))|]. intros ? ? _. eapply ct_any, ct_stores_.
    now rewrite !xor_at_length, !firstn_length, H1, H2.
  Qed.

  Lemma ct_isap_enc k npub m (n : nat) c : N.of_nat n < 2 ^ 64 -> (0 < n)%nat ->
    ct (rk ++ repeat (krE R) ((n + 17) / 18)) any
       (isap_enc o R cf k npub m (N.of_nat n) c) (isap_enc o R cf k npub m (N.of_nat n) c).
  Proof.
    intros Hn H0. destruct (before_last18 n) as (B1 & B2 & B3 & B4). set (q := ((n - 1) / 18)%nat) in *.
    assert (E7 : ((n + 17) / 18 = 1 + q)%nat) by (symmetry; apply (Nat.div_unique _ _ _ (n + 17 - 18 * (1 + q))); lia).
    eapply ct_eq.
    - unfold isap_enc. apply ct_with_block. intros st. eapply ct_bind; [apply ct_isap_rk|]. intros ? ? _.
      eapply ct_bind0; [apply ct_load_lanes|]. intros vb vb' [X1 X2]. eapply ct_bind0; [apply ct_load_lanes|]. intros w w' [W1 W2].
      eapply ct_bind0; [apply (kc_init _ _ _ Ho); rewrite app_length; lia|]. intros s s' Hs.
      eapply (ct_bind (repeat (krE R) 1)); [now apply ct_permute|]. intros z z' Hz.
      eapply ct_bind.
      + apply (ct_while0 (k_at (N.of_nat n)) [krE R] _ _ _ q).
        * intros j [[x ix] lx] [[y iy] ly] Hk (_ & _ & E1 & E2). cbn [fst snd] in *. subst lx ly. rewrite B4 by auto. auto.
        * intros j [[x ix] lx] [[y iy] ly] Hk (HL & P1 & E1 & E2). cbn [fst snd] in *. subst iy lx ly.
          unfold enc_full. eapply ct_bind0; [now apply ct_squeeze|]. intros ? ? _.
          eapply (ct_bind [krE R] []); [now apply ct_permute|]. intros u u' Hu. apply ct_ret. unfold k_at. cbn [fst snd].
          rewrite sub64_18 by lia. auto.
        * unfold k_at. cbn [fst snd]. change (18 * N.of_nat 0) with 0. rewrite N.sub_0_r. auto.
      + intros [[x ix] lx] [[y iy] ly] (HL & P1 & E1 & E2). cbn [fst snd] in *. subst iy lx ly.
        apply (ct_if []); intros _; [now apply ct_squeeze|]. eapply ct_bind0; [|intros; now apply ct_ret].
        apply (ct_for_silent eq); auto. intros i p p' <-.
        eapply ct_bind0; [apply ct_load|]. intros ? ? _. eapply ct_bind0; [apply ct_store|]. intros ? ? _. now apply ct_ret.
    - rewrite E7, concat_repeat1, app_nil_r, <- repeat_app. reflexivity.
  Qed.
End K.

(* ---------- opt_64 ---------- *)

Lemma of_lanes_length ws : length (of_lanes ws) = (2 * length ws)%nat.
Proof. unfold of_lanes. induction ws as [|w ws IH]; [reflexivity|]. cbn [map concat length]. rewrite app_length, IH, word_le_length. lia. Qed.
Lemma run_lanes p s scr n : length s = (2 * n)%nat ->
  length (concat (map (word_le 2) (firstn n (run p (map le_word (chunks 2 s) ++ scr))))) = (2 * n)%nat.
Proof.
  intros H. change (length (of_lanes (firstn n (run p (map le_word (chunks 2 s) ++ scr)))) = (2 * n)%nat).
  rewrite of_lanes_length, firstn_length, run_length, app_length, (lanes_length n) by auto. lia.
Qed.
Lemma ct_lo16 cf p : ct [] any (load_lo16 cf p) (load_lo16 cf p).
Proof.
  unfold load_lo16. destruct (aligned cf p 8); [|apply ct_fail]. eapply ct_bind0; [apply (ct_emit (ERd p 8))|]. intros ? ? _.
  intros m1 m2 t x s1 y s2 L E1 E2. cbn [smem] in *.
  destruct (inside m1 (padd p 7)); [|discriminate]. destruct (inside m2 (padd p 7)); [|discriminate].
  exact (ct_any _ _ _ _ (ct_loads_ 2 p) m1 m2 t x s1 y s2 L E1 E2).
Qed.
Lemma ct_k64_store cf s s' i n p : lens 50 s s' -> ct [] any (k64_store cf s i n p) (k64_store cf s' i n p).
Proof.
  intros [H1 H2]. eapply ct_any, ct_store_lanes.
  now rewrite !firstn_length, !skipn_length, (lanes_length 25 s H1), (lanes_length 25 s' H2).
Qed.
Lemma k64_ops_ct scr cf : kops_ct cf 50 (k64_ops scr).
Proof.
  constructor.
  - lia.
  - intros ws ws' H1 H2. apply ct_ret. split; rewrite of_lanes_length; lia.
  - intros r s s' [H1 H2]. cbn [k64_ops k_perm]. apply ct_pure. intros z z'. split; now apply (run_lanes _ _ _ 25).
  - intros p. cbn [k64_ops k_load_src]. unfold k64_load_src. do 2 (eapply ct_bind0; [apply ct_loadn|]; intros ? ? _).
    eapply ct_bind0; [apply ct_lo16|]. intros. now apply ct_ret.
  - intros p. cbn [k64_ops k_load_m]. unfold k64_load_m. do 3 (eapply ct_bind0; [apply ct_loadn|]; intros ? ? _). now apply ct_ret.
  - intros. apply xor_at_length.
  - intros. apply xor_at_length.
  - intros s s' p x H. cbn [k64_ops k_out]. unfold k64_out. eapply ct_bind0; [now apply ct_k64_store|]. intros ? ? _.
    apply (ct_if []); intros _; [now apply ct_k64_store|now apply ct_ret].
  - intros s s' p H. now apply ct_k64_store.
  - intros p. cbn [k64_ops k_load16]. eapply ct_bind0; [apply ct_load_lanes|]. intros x y [H1 H2]. apply ct_ret.
    split; rewrite of_lanes_length; lia.
Qed.

(* ---------- avx512 ---------- *)

Lemma ct_mask_load n p : ct [] (lens n) (mask_load n p) (mask_load n p).
Proof. eapply ct_bind0; [apply (ct_emit (ERd p (N.of_nat n)))|]. intros ? ? _. apply ct_loads_. Qed.
Lemma ct_mask_store b b' p : length b = length b' -> ct [] any (mask_store b p) (mask_store b' p).
Proof.
  intros H. unfold mask_store. rewrite H. eapply ct_bind0; [apply (ct_emit (EWr p (N.of_nat (length b'))))|]. intros ? ? _.
  now eapply ct_any, ct_stores_.
Qed.
Lemma kavx_ops_ct junk scr cf : junk_ok junk -> kops_ct cf 64 (kavx junk scr).
Proof.
  intros Hj. constructor.
  - lia.
  - intros ws ws' H1 H2. cbn [kavx kavx_ops k_init]. apply ct_pure. intros z z'.
    destruct (Hj (smem z)) as [J1 _], (Hj (smem z')) as [J2 _]. split; rewrite app_length, of_lanes_length; lia.
  - intros r s s' [H1 H2]. cbn [kavx kavx_ops k_perm]. apply ct_pure. intros z z'. split; now apply (run_lanes _ _ _ 32).
  - intros p. eapply ct_any, ct_mask_load.
  - intros p. eapply ct_any, ct_mask_load.
  - intros. apply xor_at_length.
  - intros. apply xor_at_length.
  - intros s s' p x [H1 H2]. cbn [kavx kavx_ops k_out]. apply (ct_if []); intros _; apply ct_mask_store; now rewrite !firstn_length, H1, H2.
  - intros s s' p [H1 H2]. apply ct_mask_store. now rewrite !firstn_length, H1, H2.
  - intros p. apply ct_mask_load.
Qed.
