(* Traces and permutation calls of the reference crypto_aead_encrypt and crypto_aead_decrypt. Proofs only. *)
From Verif Require Import Base Prog SpecPerm Words RefPerm AsconProof KeccakProof Mem Vocab MemProof RefLib Trace.
From Verif Require Spec RefIsap.
From Verif Require Import Sponge RefProof RefAead SpecFacts Api RefTrace.
Import Spec(inst, i_sz, i_rate, i_sH, i_sB, i_sE, i_sK, i_perm).
Import RefIsap.
Open Scope N_scope.
Open Scope cm_scope.

(* ---- the trace only grows ---- *)
Definition grows {A} (f : M A) : Prop := forall s a s', f s = Ok a s' -> exists u, strc s' = u ++ strc s.

Lemma gr_ret {A} (a : A) : grows (ret a).
Proof. intros s b s' E. injection E as <- <-. now exists []. Qed.
Lemma gr_bind {A B} (f : M A) (g : A -> M B) : grows f -> (forall a, grows (g a)) -> grows (bind f g).
Proof.
  intros H1 H2 s b s' E. unfold bind in E. destruct (f s) as [a s1| | |] eqn:Ef; try discriminate.
  destruct (H1 _ _ _ Ef) as (u & E1). destruct (H2 _ _ _ _ E) as (w & E2). exists (w ++ u). now rewrite E2, E1, app_assoc.
Qed.
Lemma gr_emit e : grows (emit e).
Proof. intros s b s' E. injection E as <- <-. now exists [e]. Qed.
Lemma gr_fail {A} : grows (@fail_ub A).
Proof. intros s b s' E. discriminate. Qed.
Lemma gr_assert c b : grows (assert_ c b).
Proof. unfold assert_. destruct b; [apply gr_ret|]. destruct (ndebug c); [apply gr_ret|]. intros s a s' E. discriminate. Qed.
Lemma gr_if {A} b (x y : M A) : grows x -> grows y -> grows (if_ b x y).
Proof.
  intros H1 H2. apply gr_bind; [apply gr_bind; [apply gr_emit|intros; apply gr_ret]|]. intros c. now destruct c.
Qed.
Lemma gr_load_ p : grows (load_ p).
Proof. intros s a s' E. unfold load_ in E. destruct (rd1 (smem s) p); [|discriminate]. injection E as <- <-. now exists []. Qed.
Lemma gr_store_ p v : grows (store_ p v).
Proof. intros s a s' E. unfold store_ in E. destruct (wr1 (smem s) p v); [|discriminate]. injection E as <- <-. now exists []. Qed.
Lemma gr_load p : grows (load p).
Proof. apply gr_bind; [apply gr_emit|intros; apply gr_load_]. Qed.
Lemma gr_store p v : grows (store p v).
Proof. apply gr_bind; [apply gr_emit|intros; apply gr_store_]. Qed.
Lemma gr_loads_ n p : grows (loads_ n p).
Proof.
  revert p; induction n as [|n IH]; intros p; cbn [loads_]; [apply gr_ret|].
  apply gr_bind; [apply gr_load_|]. intros v. apply gr_bind; [apply IH|]. intros; apply gr_ret.
Qed.
Lemma gr_stores_ vs p : grows (stores_ vs p).
Proof.
  revert p; induction vs as [|v vs IH]; intros p; cbn [stores_]; [apply gr_ret|].
  apply gr_bind; [apply gr_store_|]. intros _. apply IH.
Qed.
Lemma gr_loadn c n p : grows (loadn c n p).
Proof. unfold loadn. destruct (aligned c p n); [|apply gr_fail]. apply gr_bind; [apply gr_emit|intros _; apply gr_loads_]. Qed.
Lemma gr_storen c vs p : grows (storen c vs p).
Proof. unfold storen. destruct (aligned c p (length vs)); [|apply gr_fail]. apply gr_bind; [apply gr_emit|intros _; apply gr_stores_]. Qed.
Lemma gr_memcpy d s n : grows (memcpy d s n).
Proof.
  unfold memcpy. destruct (overlap d s n); [apply gr_fail|].
  apply gr_bind; [apply gr_emit|intros _]. apply gr_bind; [apply gr_emit|intros _].
  apply gr_bind; [apply gr_loads_|intros vs]. apply gr_stores_.
Qed.
Lemma gr_memset d v n : grows (memset d v n).
Proof. apply gr_bind; [apply gr_emit|intros _; apply gr_stores_]. Qed.
Lemma gr_block {A} n (f : ptr -> M A) : (forall p, grows (f p)) -> grows (with_block n f).
Proof.
  intros H s a s' E. unfold with_block in E. destruct (f _ _) as [x sx| | |] eqn:Ef; try discriminate. injection E as <- <-.
  destruct (H _ _ _ _ Ef) as (u & E1). cbn [strc] in *. eauto.
Qed.
Lemma gr_for {A} x y (body : N -> A -> M A) a : (forall i a, grows (body i a)) -> grows (for_ x y body a).
Proof.
  intros H. unfold for_. generalize (N.to_nat (y - x)). intros n. revert x a; induction n as [|n IH]; intros x a; cbn [for_nat].
  - apply gr_bind; [|intros; apply gr_ret]. apply gr_bind; [apply gr_emit|intros; apply gr_ret].
  - apply gr_bind; [apply gr_bind; [apply gr_emit|intros; apply gr_ret]|]. intros. apply gr_bind; auto.
Qed.

Ltac gr1 :=
  lazymatch goal with
  | |- grows (with_block _ _) => apply gr_block; intros ?
  | |- grows (if_ _ _ _) => apply gr_if
  | |- grows (for_ _ _ _ _) => apply gr_for; intros ? ?
  | |- grows (bind _ _) => apply gr_bind; [|intros ?]
  | |- grows (ret _) => apply gr_ret
  | |- grows (emit _) => apply gr_emit
  | |- grows (assert_ _ _) => apply gr_assert
  | |- grows (load _) => apply gr_load
  | |- grows (store _ _) => apply gr_store
  | |- grows (loadn _ _ _) => apply gr_loadn
  | |- grows (storen _ _ _) => apply gr_storen
  | |- grows (memcpy _ _ _) => apply gr_memcpy
  | |- grows (memset _ _ _) => apply gr_memset
  end.
Ltac gr := repeat gr1.

Record lib_grows (L : plib) : Prop := {
  lg_init : forall s, grows (pl_init L s);
  lg_add : forall s d o n, grows (pl_add L s d o n);
  lg_over : forall s d o n, grows (pl_over L s d o n);
  lg_perm : forall s r, grows (pl_perm L s r);
  lg_extract : forall s d o n, grows (pl_extract L s d o n) }.

Lemma ascon_grows cf : lib_grows (ascon_lib cf).
Proof.
  constructor; cbn [pl_init pl_add pl_over pl_perm pl_extract ascon_lib keccak_lib]; intros;
    unfold lib_Initialize, lib_AddBytes, Ascon_OverwriteBytes, Ascon_Permute_Nrounds, lib_ExtractBytes, lib_asserts, load64, store64; cbv zeta; gr.
Qed.
Lemma keccak_grows cf : lib_grows (keccak_lib cf).
Proof.
  constructor; cbn [pl_init pl_add pl_over pl_perm pl_extract ascon_lib keccak_lib]; intros;
    unfold lib_Initialize, lib_AddBytes, KeccakP400_OverwriteBytes, KeccakP400_Permute_Nrounds, lib_ExtractBytes, lib_asserts; gr.
  - generalize 25%nat as n. intros n. revert s. induction n as [|n IH]; intros s; cbn [load_lanes]; gr. apply IH.
  - match goal with |- grows (store_lanes _ (keccak_ref_words _ ?x) _) => generalize (keccak_ref_words r x) end. intros l.
    revert s. induction l as [|w l IH]; intros s; cbn [store_lanes]; gr. apply IH.
Qed.

(* ---- traces from given memories ---- *)
Definition tr {A} (f : M A) (m : mem) (g : M A) (n : mem) : Prop :=
  forall t a s1 b s2, f (St m t) = Ok a s1 -> g (St n t) = Ok b s2 -> strc s1 = strc s2.

Lemma tr_rel {A} (R : A -> A -> Prop) f g m n : rel R f g -> layout m n -> tr f m g n.
Proof. intros H HL t a s1 b s2 E1 E2. now destruct (H _ _ _ _ _ _ _ HL E1 E2). Qed.

Lemma tr_bind {A B} (f g : M A) (f' g' : A -> M B) m n a b m1 n1 :
  runs f m a m1 -> runs g n b n1 -> tr f m g n -> tr (f' a) m1 (g' b) n1 -> tr (bind f f') m (bind g g') n.
Proof.
  intros R1 R2 H1 H2 t x s1 y s2 E1 E2. unfold bind in *.
  destruct (R1 t) as (t1 & F1). destruct (R2 t) as (t2 & F2). rewrite F1 in E1. rewrite F2 in E2.
  pose proof (H1 _ _ _ _ _ F1 F2) as Et. cbn [strc] in Et. subst t2. exact (H2 _ _ _ _ _ E1 E2).
Qed.

Lemma tr_if {A} (b : bool) (x y x' y' : M A) m n :
  (b = true -> tr x m x' n) -> (b = false -> tr y m y' n) -> tr (if_ b x y) m (if_ b x' y') n.
Proof.
  intros H1 H2 t a s1 c s2 E1 E2. unfold if_, branch, emit, bind, ret in *. cbn [smem strc] in *.
  destruct b; [exact (H1 eq_refl _ _ _ _ _ E1 E2)|exact (H2 eq_refl _ _ _ _ _ E1 E2)].
Qed.
Lemma tr_then_ret {A B} (f g : M A) (z : B) m n : tr f m g n -> tr (f ;; ret z) m (g ;; ret z) n.
Proof.
  intros H t a s1 c s2 E1 E2. unfold bind, ret in *.
  destruct (f (St m t)) as [x sx| | |] eqn:Ef; try discriminate.
  destruct (g (St n t)) as [y sy| | |] eqn:Eg; try discriminate.
  injection E1 as <- <-. injection E2 as <- <-. exact (H _ _ _ _ _ Ef Eg).
Qed.

Lemma tr_for_nat {A} (I J : nat -> A) m n k : forall i j f g,
  (forall x, (x < k)%nat -> runs (f (i + N.of_nat x)) m (I (S (j + x))) m) ->
  (forall x, (x < k)%nat -> runs (g (i + N.of_nat x)) n (J (S (j + x))) n) ->
  (forall x, (x < k)%nat -> tr (f (i + N.of_nat x)) m (g (i + N.of_nat x)) n) ->
  forall (F G : N -> A -> M A),
  (forall x, (x < k)%nat -> F (i + N.of_nat x) (I (j + x)%nat) = f (i + N.of_nat x)) ->
  (forall x, (x < k)%nat -> G (i + N.of_nat x) (J (j + x)%nat) = g (i + N.of_nat x)) ->
  tr (for_nat k i F (I j)) m (for_nat k i G (J j)) n.
Proof.
  induction k as [|k IH]; intros i j f g R1 R2 HT F G EF EG; cbn [for_nat].
  - intros t a s1 b s2 E1 E2. injection E1 as <- <-. injection E2 as <- <-. reflexivity.
  - apply (tr_bind _ _ _ _ m n true true m n); try apply runs_branch.
    { intros t a s1 b s2 E1 E2. injection E1 as <- <-. injection E2 as <- <-. reflexivity. }
    pose proof (EF 0%nat ltac:(lia)) as E1. pose proof (EG 0%nat ltac:(lia)) as E2.
    pose proof (R1 0%nat ltac:(lia)) as Q1. pose proof (R2 0%nat ltac:(lia)) as Q2. pose proof (HT 0%nat ltac:(lia)) as Q3.
    rewrite !Nat.add_0_r in *. rewrite !N.add_0_r in *.
    rewrite E1, E2. apply (tr_bind _ _ _ _ m n (I (S j)) (J (S j)) m n); auto.
    apply (IH (i + 1) (S j) f g); intros x Hx.
    + specialize (R1 (S x) ltac:(lia)). replace (i + 1 + N.of_nat x) with (i + N.of_nat (S x)) by lia.
      now replace (S j + x)%nat with (j + S x)%nat by lia.
    + specialize (R2 (S x) ltac:(lia)). replace (i + 1 + N.of_nat x) with (i + N.of_nat (S x)) by lia.
      now replace (S j + x)%nat with (j + S x)%nat by lia.
    + specialize (HT (S x) ltac:(lia)). now replace (i + 1 + N.of_nat x) with (i + N.of_nat (S x)) by lia.
    + specialize (EF (S x) ltac:(lia)). replace (i + 1 + N.of_nat x) with (i + N.of_nat (S x)) by lia.
      now replace (S j + x)%nat with (j + S x)%nat by lia.
    + specialize (EG (S x) ltac:(lia)). replace (i + 1 + N.of_nat x) with (i + N.of_nat (S x)) by lia.
      now replace (S j + x)%nat with (j + S x)%nat by lia.
Qed.

Lemma tr_for {A} (I J : nat -> A) m n k (F G : N -> A -> M A) :
  (forall x, (x < k)%nat -> runs (F (N.of_nat x) (I x)) m (I (S x)) m) ->
  (forall x, (x < k)%nat -> runs (G (N.of_nat x) (J x)) n (J (S x)) n) ->
  (forall x, (x < k)%nat -> tr (F (N.of_nat x) (I x)) m (G (N.of_nat x) (J x)) n) ->
  tr (for_ 0 (N.of_nat k) F (I 0%nat)) m (for_ 0 (N.of_nat k) G (J 0%nat)) n.
Proof.
  intros H1 H2 H3. unfold for_. replace (N.to_nat (N.of_nat k - 0)) with k by lia.
  apply (tr_for_nat I J m n k 0 0 (fun i => F i (I (N.to_nat i))) (fun i => G i (J (N.to_nat i)))); intros x Hx;
    rewrite ?N.add_0_l, ?Nat2N.id; auto.
Qed.

Section Ref.
  Variables (L : plib) (I : inst) (mc : macros) (maxr : nat) (okb : nat -> Prop) (cf : cfg).
  Hypothesis HL : lib_ok L (i_sz I) (i_perm I) maxr okb.
  Hypothesis Hmc : mac_ok I mc maxr.
  Hypothesis Hct : lib_ct L.
  Hypothesis Hll : lib_calls L.
  Hypothesis Hg : lib_grows L.

  Lemma gr_isap_enc k npub m mlen c : grows (isap_enc L mc k npub m mlen c).
  Proof.
    clear HL Hmc Hct Hll.
    unfold isap_enc, isap_rk, add_local, Permutation_AddBytes, Permutation_OverwriteBytes, Permutation_ExtractBytes,
      Permutation_Permute_Nrounds, Permutation_Initialize.
    repeat first [gr1 | apply (lg_init _ Hg) | apply (lg_add _ Hg) | apply (lg_over _ Hg) | apply (lg_perm _ Hg) | apply (lg_extract _ Hg)].
  Qed.

  Lemma same_calls a n : mac_calls mc (i_rate I) a n = calls_mac I a n /\
    (n <> 0%nat -> enc_calls mc (i_rate I) n = calls_enc I n).
  Proof.
    unfold mac_calls, enc_calls, calls_mac, calls_enc, rk_calls, calls_rk.
    rewrite (mo_sH _ _ _ Hmc), (mo_sK _ _ _ Hmc), (mo_sB _ _ _ Hmc), (mo_sE _ _ _ Hmc). split.
    - do 2 f_equal. lia.
    - intros H. now replace (n =? 0)%nat with false by lia.
  Qed.

  (* C16 *)
  Lemma ref_enc_trace mm mm' c clen m ad npub k K Nn A T K' Nn' A' T' :
    (forall b, (length mm <= b)%nat -> okb b) ->
    enc_valid cf (ref_consts mc) mm c clen m ad npub k K Nn A T ->
    enc_valid cf (ref_consts mc) mm' c clen m ad npub k K' Nn' A' T' ->
    length A = length A' -> length T = length T' -> layout mm mm' ->
    forall t, exists s s',
      a_enc (ref_aead L mc cf) c clen m (N.of_nat (length T)) ad (N.of_nat (length A)) npub k (St mm t) = Ok 0%Z s /\
      a_enc (ref_aead L mc cf) c clen m (N.of_nat (length T)) ad (N.of_nat (length A)) npub k (St mm' t) = Ok 0%Z s' /\
      strc s = strc s'.
  Proof.
    intros Hok V V' EA ET Hlay t.
    assert (Hok' : forall b, (length mm' <= b)%nat -> okb b) by (rewrite <- (layout_length _ _ Hlay); auto).
    destruct (ref_enc_ok L I mc maxr okb cf HL Hmc _ _ _ _ _ _ _ _ _ _ _ Hok V t) as (t1 & E1).
    destruct (ref_enc_ok L I mc maxr okb cf HL Hmc _ _ _ _ _ _ _ _ _ _ _ Hok' V' t) as (t2 & E2).
    rewrite <- EA, <- ET in E2. eexists _, _. split; [exact E1|]. split; [exact E2|].
    exact (tr_rel _ _ _ _ _ (rel_encrypt L mc Hct cf _ _ _ _ _ _ _ _) Hlay _ _ _ _ _ E1 E2).
  Qed.

  (* C18, encryption *)
  Lemma ref_enc_calls mm c clen m ad npub k K Nn A T :
    (forall b, (length mm <= b)%nat -> okb b) ->
    enc_valid cf (ref_consts mc) mm c clen m ad npub k K Nn A T ->
    forall t, exists s,
      a_enc (ref_aead L mc cf) c clen m (N.of_nat (length T)) ad (N.of_nat (length A)) npub k (St mm t) = Ok 0%Z s /\
      perms (strc s) = perms t ++ calls_enc I (length T) ++ calls_mac I (length A) (length T).
  Proof.
    intros Hok V t.
    destruct (ref_enc_ok L I mc maxr okb cf HL Hmc _ _ _ _ _ _ _ _ _ _ _ Hok V t) as (t1 & E1).
    eexists. split; [exact E1|].
    destruct (calls_encrypt L I mc maxr okb Hmc Hll cf _ _ _ _ _ _ _ _ _ _ _ E1) as (ps & E & ->).
    rewrite E. cbn [strc]. destruct (same_calls (length A) (length T)) as [-> E2]. f_equal. f_equal.
    destruct (Nat.eqb_spec (length T) 0) as [->|Hn]; auto.
  Qed.

  (* The tag comparison loop of decryption (crypto_aead.c 44-48). *)
  Definition cmp_loop (mlen c tag : ptr) : M N :=
    for_ 0 ISAP_TAG_SZ (fun i eq_cnt =>
        a <- load (padd tag i) ;;
        ml <- load_ull cf mlen ;;
        b <- load (padd c (u64 (ml + i))) ;;
        ret (eq_cnt + (if a =? b then 1 else 0))) 0.

  Definition dec_fin (k npub mlen c m : ptr) (e : N) : M Z :=
      if_ (e =? ISAP_TAG_SZ)
        (ml <- load_ull cf mlen ;;
         if_ (0 <? ml) (ml <- load_ull cf mlen ;; isap_enc L mc k npub c ml m) (ret tt) ;;
         ret 0%Z)
        (ret (-1)%Z).

  (* The state in which the comparison starts. *)
  Lemma dec_runs mm m mlen c ad npub k K Nn A Y :
    (forall b, (length mm <= b)%nat -> okb b) ->
    dec_valid cf (ref_consts mc) mm m mlen c ad npub k K Nn A Y ->
    let n := (length Y - 16)%nat in
    let m1 := putp mm mlen (word_le 8 (N.of_nat n)) in
    let T := Spec.isap_mac I K Nn A (firstn n Y) in
    let m2 := m1 ++ [map Some T] in
    runs (store_ull cf mlen (sub64 (N.of_nat (length Y)) ISAP_TAG_SZ)) mm tt m1 /\
    has m1 mlen (word_le 8 (N.of_nat n)) /\
    runs (isap_mac L mc k npub ad (N.of_nat (length A)) c (N.of_nat n) (P (length m1) 0)) (m1 ++ [uninit 16]) tt m2 /\
    has m2 (P (length m1) 0) T /\ length T = 16%nat /\ length (skipn n Y) = 16%nat /\
    has m2 (padd c (N.of_nat n)) (skipn n Y) /\
    (Spec.isap_decrypt I K Nn A Y = None <-> eqs 16 T (skipn n Y) <> 16) /\
    N.of_nat n + 16 < 2 ^ 64 /\ aligned cf mlen 8 = true.
  Proof.
    intros Hok V. cbv zeta. destruct V as [Vc [[Bk Hk] Lk] [[Bn Hn] Ln] [[Ba Ha] La] [[By Hy] [Ly Gy]] [Rm Pm] [Rl [Pl Al]]
      (D1 & D2 & D3 & D4 & D5) (D6 & D7 & D8) Hf].
    unfold RefIsap.ISAP_TAG_SZ. rewrite sub64_small by lia.
    set (n := (length Y - 16)%nat) in *. replace (N.of_nat (length Y) - 16) with (N.of_nat n) in * by lia.
    set (m1 := putp mm mlen (word_le 8 (N.of_nat n))).
    assert (Hl8 : room mm mlen (length (word_le 8 (N.of_nat n)))) by now rewrite word_le_length.
    assert (F1 : forall q bs, has mm q bs -> disj mlen 8 q (length bs) -> has m1 q bs).
    { intros q bs H1 H2. apply has_putp_disj; rewrite ?word_le_length; auto. }
    assert (C1 : consts_ok (ref_consts mc) m1) by now apply consts_putp.
    assert (O1 : okbs okb m1) by (apply okbs_putp; exact Hok).
    assert (Hml : has m1 mlen (word_le 8 (N.of_nat n))) by now apply has_putp_same.
    set (C := firstn n Y). set (tg := skipn n Y).
    assert (LC : length C = n) by (unfold C; rewrite firstn_length; lia).
    assert (Ltg : length tg = 16%nat) by (unfold tg; rewrite skipn_length; lia).
    assert (BC : bytes C) by now apply bytes_firstn.
    assert (HY1 : has m1 c Y) by now apply F1.
    assert (HC1 : has m1 c C) by now apply has_firstn.
    assert (Htg1 : has m1 (padd c (N.of_nat n)) tg) by now apply has_skipn.
    assert (Hk1 : has m1 k K) by (apply F1; auto; now rewrite Lk).
    assert (Hn1 : has m1 npub Nn) by (apply F1; auto; now rewrite Ln).
    assert (Ha1 : has m1 ad A) by (apply F1; auto).
    set (T := Spec.isap_mac I K Nn A C).
    destruct (mac_length L I mc maxr okb HL Hmc K Nn A C) as [BT LT]; auto. fold T in BT, LT.
    assert (Dec : Spec.isap_decrypt I K Nn A Y = if list_eq_dec N.eq_dec tg T then Some (Spec.isap_enc I K Nn C) else None).
    { unfold Spec.isap_decrypt. replace (length Y <? 16)%nat with false by lia. reflexivity. }
    assert (C1' : consts_ok (ref_consts mc) (m1 ++ [uninit 16])) by (apply consts_app; [auto|apply ref_nonempty]).
    destruct (ref_ivs I mc maxr Hmc _ C1') as (I1 & I2 & I3).
    split; [now apply runs_store_ull|]. split; [exact Hml|]. split.
    { rewrite <- LC. eapply runs_eq; [apply (r_isap_mac L I mc maxr okb HL Hmc) with (kb := K) (nb := Nn)| |]; auto.
      - now apply okbs_app.
      - now apply has_app.
      - now apply has_app.
      - now apply has_app.
      - now apply has_app.
      - apply room_of_le. cbn [pb po]. rewrite blk_mid, uninit_length. lia.
      - fold T. unfold putp, put. cbn [pb po]. rewrite blk_mid, upd_mid. change (N.to_nat 0) with 0%nat.
        do 2 f_equal. apply splice_all. now rewrite map_length, uninit_length, LT. }
    split; [apply has_blk0, blk_mid|]. split; [exact LT|]. split; [exact Ltg|].
    split; [now apply has_app|]. split; [|split; [lia|auto]].
    assert (Heq : eqs 16 T tg = 16 <-> T = tg) by (apply (eqs_eq T tg 16); auto).
    rewrite Dec. destruct (list_eq_dec N.eq_dec tg T) as [E|E]; split; intros H; try discriminate; auto.
    - exfalso. apply H, Heq. auto.
    - intros E2. apply Heq in E2. auto.
  Qed.

  Lemma cmp_body_runs m2 mlen c tag T tg n j e : has m2 tag T -> length T = 16%nat -> length tg = 16%nat ->
    has m2 (padd c (N.of_nat n)) tg -> has m2 mlen (word_le 8 (N.of_nat n)) -> N.of_nat n + 16 < 2 ^ 64 -> aligned cf mlen 8 = true ->
    (j < 16)%nat ->
    runs (a <- load (padd tag (N.of_nat j)) ;; ml <- load_ull cf mlen ;; b <- load (padd c (u64 (ml + N.of_nat j))) ;;
          ret (e + (if a =? b then 1 else 0))) m2 (e + (if nth j T 0 =? nth j tg 0 then 1 else 0)) m2.
  Proof.
    intros HT LT Ltg Htg Hml Hn Al Hj.
    eapply runs_bind; [apply runs_load, HT; lia|].
    eapply runs_bind; [apply (runs_load_ull cf mlen (N.of_nat n)); auto; lia|].
    eapply runs_bind.
    - rewrite u64_small by lia. rewrite <- padd_padd. apply runs_load, Htg. lia.
    - apply runs_ret.
  Qed.

  Lemma cmp_runs m2 mlen c tag T tg n : has m2 tag T -> length T = 16%nat -> length tg = 16%nat ->
    has m2 (padd c (N.of_nat n)) tg -> has m2 mlen (word_le 8 (N.of_nat n)) -> N.of_nat n + 16 < 2 ^ 64 -> aligned cf mlen 8 = true ->
    runs (cmp_loop mlen c tag) m2 (eqs 16 T tg) m2.
  Proof.
    intros. apply (runs_for (fun j => eqs j T tg) (fun _ => m2)); auto.
    change (N.to_nat ISAP_TAG_SZ) with 16%nat. intros j Hj. cbn [eqs]. apply (cmp_body_runs _ _ _ _ _ _ n); auto.
  Qed.

  Lemma cmp_tr m2 m2' mlen c tag T tg T' tg' n : layout m2 m2' -> aligned cf mlen 8 = true -> N.of_nat n + 16 < 2 ^ 64 ->
    has m2 tag T -> length T = 16%nat -> length tg = 16%nat -> has m2 (padd c (N.of_nat n)) tg -> has m2 mlen (word_le 8 (N.of_nat n)) ->
    has m2' tag T' -> length T' = 16%nat -> length tg' = 16%nat -> has m2' (padd c (N.of_nat n)) tg' -> has m2' mlen (word_le 8 (N.of_nat n)) ->
    tr (cmp_loop mlen c tag) m2 (cmp_loop mlen c tag) m2'.
  Proof.
    intros Hlay Al Hn H1 H2 H3 H4 H5 G1 G2 G3 G4 G5. unfold cmp_loop. change ISAP_TAG_SZ with (N.of_nat 16).
    apply (tr_for (fun j => eqs j T tg) (fun j => eqs j T' tg')); intros j Hj; cbn [eqs].
    - apply (cmp_body_runs _ _ _ _ _ _ n); auto.
    - apply (cmp_body_runs _ _ _ _ _ _ n); auto.
    - apply (tr_bind _ _ _ _ _ _ (nth j T 0) (nth j T' 0) m2 m2'); [apply runs_load, H1; lia|apply runs_load, G1; lia| |].
      { apply (tr_rel any); auto. apply rel_load. }
      apply (tr_bind _ _ _ _ _ _ (N.of_nat n) (N.of_nat n) m2 m2'); [apply runs_load_ull; auto; lia|apply runs_load_ull; auto; lia| |].
      { apply (tr_rel any); auto. eapply rel_bind; [apply rel_loadn|]. intros. now apply rel_ret. }
      apply (tr_rel any); auto. eapply rel_bind; [apply rel_load|]. intros. now apply rel_ret.
  Qed.

  (* Decryption up to the verdict, then the verdict. *)
  Lemma dec_split mm m mlen c ad npub k K Nn A Y :
    (forall b, (length mm <= b)%nat -> okb b) ->
    dec_valid cf (ref_consts mc) mm m mlen c ad npub k K Nn A Y ->
    let n := (length Y - 16)%nat in
    let m1 := putp mm mlen (word_le 8 (N.of_nat n)) in
    let T := Spec.isap_mac I K Nn A (firstn n Y) in
    let m2 := m1 ++ [map Some T] in
    let tag := P (length m1) 0 in
    let e := eqs 16 T (skipn n Y) in
    forall t, exists t1 t2 t3 t4,
      store_ull cf mlen (sub64 (N.of_nat (length Y)) ISAP_TAG_SZ) (St mm t) = Ok tt (St m1 t1) /\
      load_ull cf mlen (St (m1 ++ [uninit 16]) t1) = Ok (N.of_nat n) (St (m1 ++ [uninit 16]) t2) /\
      isap_mac L mc k npub ad (N.of_nat (length A)) c (N.of_nat n) tag (St (m1 ++ [uninit 16]) t2) = Ok tt (St m2 t3) /\
      cmp_loop mlen c tag (St m2 t3) = Ok e (St m2 t4) /\
      a_dec (ref_aead L mc cf) m mlen c (N.of_nat (length Y)) ad (N.of_nat (length A)) npub k (St mm t) =
        match dec_fin k npub mlen c m e (St m2 t4) with
        | Ok a s => Ok a (St (removelast (smem s)) (strc s)) | UB => UB | Abort => Abort | OutOfFuel => OutOfFuel
        end.
  Proof.
    intros Hok V. cbv zeta. intros t.
    destruct (dec_runs _ _ _ _ _ _ _ _ _ _ _ Hok V) as (R1 & Hml & R2 & HT & LT & Ltg & Htg & _ & Hn & Al).
    set (n := (length Y - 16)%nat) in *. set (m1 := putp mm mlen (word_le 8 (N.of_nat n))) in *.
    set (T := Spec.isap_mac I K Nn A (firstn n Y)) in *.
    destruct (R1 t) as (t1 & E1).
    destruct (runs_load_ull cf mlen (N.of_nat n) (m1 ++ [uninit 16]) (has_app _ _ _ _ Hml) Al ltac:(lia) t1) as (t2 & E2).
    destruct (R2 t2) as (t3 & E3).
    destruct (cmp_runs _ mlen c _ _ _ n HT LT Ltg Htg (has_app _ _ _ _ Hml) Hn Al t3) as (t4 & E4).
    exists t1, t2, t3, t4. split; [exact E1|]. split; [exact E2|]. split; [exact E3|]. split; [exact E4|].
    cbn [a_dec ref_aead]. unfold crypto_aead_decrypt. unfold bind at 1. rewrite E1. unfold with_block. cbn [smem strc].
    unfold bind at 1. rewrite E2. unfold bind at 1. rewrite E3. unfold bind at 1.
    change (for_ 0 ISAP_TAG_SZ _ 0) with (cmp_loop mlen c (P (length m1) 0)). rewrite E4. unfold dec_fin. reflexivity.
  Qed.

  Lemma dec_fin_reject k npub mlen c m e s : e <> 16 -> dec_fin k npub mlen c m e s = Ok (-1)%Z (St (smem s) (EBr false :: strc s)).
  Proof. intros H. unfold dec_fin. change ISAP_TAG_SZ with 16. replace (e =? 16) with false by lia. reflexivity. Qed.

  (* C17 *)
  Lemma ref_dec_trace mm mm' m mlen c ad npub k K Nn A Y K' Nn' A' Y' :
    (forall b, (length mm <= b)%nat -> okb b) ->
    dec_valid cf (ref_consts mc) mm m mlen c ad npub k K Nn A Y ->
    dec_valid cf (ref_consts mc) mm' m mlen c ad npub k K' Nn' A' Y' ->
    length A = length A' -> length Y = length Y' -> layout mm mm' ->
    forall t, exists r s r' s' t0 u u',
      a_dec (ref_aead L mc cf) m mlen c (N.of_nat (length Y)) ad (N.of_nat (length A)) npub k (St mm t) = Ok r s /\
      a_dec (ref_aead L mc cf) m mlen c (N.of_nat (length Y)) ad (N.of_nat (length A)) npub k (St mm' t) = Ok r' s' /\
      strc s = u ++ EBr (r =? 0)%Z :: t0 /\ strc s' = u' ++ EBr (r' =? 0)%Z :: t0 /\
      (r <> 0%Z -> u = []) /\ (r' <> 0%Z -> u' = []) /\ (r = r' -> u = u').
  Proof.
    intros Hok V V' EA EY Hlay t.
    assert (Hok' : forall b, (length mm' <= b)%nat -> okb b) by (rewrite <- (layout_length _ _ Hlay); auto).
    pose proof (dec_runs _ _ _ _ _ _ _ _ _ _ _ Hok V) as (_ & Hml & R2 & HT & LT & Ltg & Htg & Hd & Hn & Al).
    pose proof (dec_runs _ _ _ _ _ _ _ _ _ _ _ Hok' V') as (_ & Hml' & R2' & HT' & LT' & Ltg' & Htg' & Hd' & _ & _).
    destruct (dec_split _ _ _ _ _ _ _ _ _ _ _ Hok V t) as (t1 & t2 & t3 & t4 & E1 & E2 & E3 & E4 & E5).
    destruct (dec_split _ _ _ _ _ _ _ _ _ _ _ Hok' V' t) as (t1' & t2' & t3' & t4' & E1' & E2' & E3' & E4' & E5').
    destruct (ref_dec_ok L I mc maxr okb cf HL Hmc _ _ _ _ _ _ _ _ _ _ _ Hok V t) as (tz & Z).
    destruct (ref_dec_ok L I mc maxr okb cf HL Hmc _ _ _ _ _ _ _ _ _ _ _ Hok' V' t) as (tz' & Z').
    cbv zeta in *.
    rewrite <- EA, <- EY in *. set (n := (length Y - 16)%nat) in *.
    set (m1 := putp mm mlen (word_le 8 (N.of_nat n))) in *. set (m1' := putp mm' mlen (word_le 8 (N.of_nat n))) in *.
    set (T := Spec.isap_mac I K Nn A (firstn n Y)) in *. set (T' := Spec.isap_mac I K' Nn' A' (firstn n Y')) in *.
    set (e := eqs 16 T (skipn n Y)) in *. set (e' := eqs 16 T' (skipn n Y')) in *.
    assert (Lm : layout m1 m1').
    { destruct (rel_storen cf (word_le 8 (sub64 (N.of_nat (length Y)) ISAP_TAG_SZ)) _ mlen eq_refl _ _ _ _ _ _ _ Hlay E1 E1')
        as (_ & H & _). exact H. }
    assert (Lg : length m1' = length m1) by (symmetry; now apply layout_length). rewrite Lg in *.
    assert (Lu : layout (m1 ++ [uninit 16]) (m1' ++ [uninit 16])) by now apply layout_app.
    assert (L2 : layout (m1 ++ [map Some T]) (m1' ++ [map Some T'])).
    { apply layout_app; auto. now rewrite !map_length, LT, LT'. }
    pose proof (tr_rel _ _ _ _ _ (rel_storen cf (word_le 8 (sub64 (N.of_nat (length Y)) ISAP_TAG_SZ)) _ mlen eq_refl) Hlay _ _ _ _ _ E1 E1') as X1.
    cbn [strc] in X1. subst t1'.
    assert (Rl : rel any (load_ull cf mlen) (load_ull cf mlen)).
    { eapply rel_bind; [apply rel_loadn|]. intros. now apply rel_ret. }
    pose proof (tr_rel _ _ _ _ _ Rl Lu _ _ _ _ _ E2 E2') as X2. cbn [strc] in X2. subst t2'.
    pose proof (tr_rel _ _ _ _ _ (rel_isap_mac L mc Hct k npub ad _ c _ _) Lu _ _ _ _ _ E3 E3') as X3. cbn [strc] in X3. subst t3'.
    pose proof (cmp_tr _ _ mlen c _ _ _ _ _ n L2 Al Hn HT LT Ltg Htg (has_app _ _ _ _ Hml) HT' LT' Ltg' Htg' (has_app _ _ _ _ Hml')
      _ _ _ _ _ E4 E4') as X4. cbn [strc] in X4. subst t4'.
    set (x := match Spec.isap_decrypt I K Nn A Y with Some _ => 0%Z | None => (-1)%Z end) in *.
    set (x' := match Spec.isap_decrypt I K' Nn' A' Y' with Some _ => 0%Z | None => (-1)%Z end) in *.
    assert (Hx : (x = 0%Z /\ e = 16) \/ (x = (-1)%Z /\ e <> 16)).
    { unfold x. destruct (Spec.isap_decrypt I K Nn A Y); [left|right; split; auto; now apply Hd]. split; auto.
      destruct (N.eq_dec e 16); auto. apply Hd in n0. discriminate. }
    assert (Hx' : (x' = 0%Z /\ e' = 16) \/ (x' = (-1)%Z /\ e' <> 16)).
    { unfold x'. destruct (Spec.isap_decrypt I K' Nn' A' Y'); [left|right; split; auto; now apply Hd']. split; auto.
      destruct (N.eq_dec e' 16); auto. apply Hd' in n0. discriminate. }
    assert (Acc : forall mx a s, dec_fin k npub mlen c m 16 (St mx t4) = Ok a s -> exists u, strc s = u ++ EBr true :: t4).
    { intros mx a s H. assert (G : grows (ml <- load_ull cf mlen ;;
         if_ (0 <? ml) (ml <- load_ull cf mlen ;; isap_enc L mc k npub c ml m) (ret tt) ;; ret 0%Z)).
      { unfold load_ull. gr; apply gr_isap_enc. }
      exact (G _ _ _ H). }
    assert (Two : forall a s a' s', dec_fin k npub mlen c m 16 (St (m1 ++ [map Some T]) t4) = Ok a s ->
        dec_fin k npub mlen c m 16 (St (m1' ++ [map Some T']) t4) = Ok a' s' -> strc s = strc s').
    { intros a s a' s' H H'.
      assert (G : tr (ml <- load_ull cf mlen ;;
         if_ (0 <? ml) (ml <- load_ull cf mlen ;; isap_enc L mc k npub c ml m) (ret tt) ;; ret 0%Z) (m1 ++ [map Some T])
         (ml <- load_ull cf mlen ;;
         if_ (0 <? ml) (ml <- load_ull cf mlen ;; isap_enc L mc k npub c ml m) (ret tt) ;; ret 0%Z) (m1' ++ [map Some T'])).
      { assert (Rm : forall mx, has mx mlen (word_le 8 (N.of_nat n)) -> runs (load_ull cf mlen) mx (N.of_nat n) mx).
        { intros mx Hmx. apply runs_load_ull; auto. lia. }
        pose proof (Rm _ (has_app _ [map Some T] _ _ Hml)) as Q. pose proof (Rm _ (has_app _ [map Some T'] _ _ Hml')) as Q'.
        apply (tr_bind _ _ _ _ _ _ _ _ _ _ Q Q'); [now apply (tr_rel any)|].
        apply tr_then_ret. apply tr_if; intros _; [|now apply (tr_rel eq); [apply rel_ret|]].
        apply (tr_bind _ _ _ _ _ _ _ _ _ _ Q Q'); [now apply (tr_rel any)|].
        apply (tr_rel eq); auto. apply (rel_isap_enc L mc Hct). }
      exact (G _ _ _ _ _ H H'). }
    change (crypto_aead_decrypt L mc cf) with (a_dec (ref_aead L mc cf)) in Z, Z'.
    rewrite E5 in Z |- *. rewrite E5' in Z' |- *.
    destruct (dec_fin k npub mlen c m e (St (m1 ++ [map Some T]) t4)) as [a s| | |] eqn:F; try discriminate.
    destruct (dec_fin k npub mlen c m e' (St (m1' ++ [map Some T']) t4)) as [a' s'| | |] eqn:F'; try discriminate.
    injection Z as Ea _ _. injection Z' as Ea' _ _. subst a a'.
    assert (Res : exists u, strc s = u ++ EBr (x =? 0)%Z :: t4 /\ (x <> 0%Z -> u = [])).
    { destruct Hx as [[Hx He]|[Hx He]]; rewrite Hx in *.
      - rewrite He in F. destruct (Acc _ _ _ F) as (u & Eu). exists u. split; [exact Eu|]. congruence.
      - rewrite (dec_fin_reject _ _ _ _ _ _ _ He) in F. injection F as <- . exists []. auto. }
    assert (Res' : exists u, strc s' = u ++ EBr (x' =? 0)%Z :: t4 /\ (x' <> 0%Z -> u = [])).
    { destruct Hx' as [[Hx' He]|[Hx' He]]; rewrite Hx' in *.
      - rewrite He in F'. destruct (Acc _ _ _ F') as (u & Eu). exists u. split; [exact Eu|]. congruence.
      - rewrite (dec_fin_reject _ _ _ _ _ _ _ He) in F'. injection F' as <- . exists []. auto. }
    destruct Res as (u & Eu & Hu). destruct Res' as (u' & Eu' & Hu').
    exists x, (St (removelast (smem s)) (strc s)), x', (St (removelast (smem s')) (strc s')), t4, u, u'.
    cbn [strc]. split; [reflexivity|]. split; [reflexivity|]. split; [exact Eu|]. split; [exact Eu'|].
    split; [exact Hu|]. split; [exact Hu'|]. intros Exx.
    destruct Hx as [[Hx He]|[Hx He]]; destruct Hx' as [[Hx' He']|[Hx' He']]; try congruence.
    - rewrite He in F. rewrite He' in F'. pose proof (Two _ _ _ _ F F') as W. rewrite Eu, Eu', Exx in W.
      now apply app_inv_tail in W.
    - rewrite Hu, Hu'; auto; congruence.
  Qed.

  (* C18, decryption *)
  Lemma ref_dec_calls mm m mlen c ad npub k K Nn A Y :
    (forall b, (length mm <= b)%nat -> okb b) ->
    dec_valid cf (ref_consts mc) mm m mlen c ad npub k K Nn A Y ->
    forall t, exists r s,
      a_dec (ref_aead L mc cf) m mlen c (N.of_nat (length Y)) ad (N.of_nat (length A)) npub k (St mm t) = Ok r s /\
      perms (strc s) = perms t ++ calls_mac I (length A) (length Y - 16) ++
        (if (r =? 0)%Z then calls_enc I (length Y - 16) else []).
  Proof.
    intros Hok V t.
    pose proof (dec_runs _ _ _ _ _ _ _ _ _ _ _ Hok V) as (_ & Hml & _ & _ & _ & _ & _ & Hd & Hn & Al).
    destruct (dec_split _ _ _ _ _ _ _ _ _ _ _ Hok V t) as (t1 & t2 & t3 & t4 & E1 & E2 & E3 & E4 & E5).
    destruct (ref_dec_ok L I mc maxr okb cf HL Hmc _ _ _ _ _ _ _ _ _ _ _ Hok V t) as (tz & Z).
    cbv zeta in *. set (n := (length Y - 16)%nat) in *.
    set (m1 := putp mm mlen (word_le 8 (N.of_nat n))) in *.
    set (T := Spec.isap_mac I K Nn A (firstn n Y)) in *. set (e := eqs 16 T (skipn n Y)) in *.
    assert (P4 : perms t4 = perms t ++ calls_mac I (length A) n).
    { destruct (silent_storen cf _ _ _ _ _ E1) as (p1 & G1 & ->).
      assert (S2 : silent (load_ull cf mlen)) by (apply silent_bind; [apply silent_loadn|intros; apply silent_ret]).
      destruct (S2 _ _ _ E2) as (p2 & G2 & ->).
      destruct (calls_isap_mac L I mc maxr okb Hmc Hll _ _ _ _ _ _ _ _ _ _ E3) as (p3 & G3 & ->).
      assert (S4 : silent (cmp_loop mlen c (P (length m1) 0))).
      { apply silent_for. intros. apply silent_bind; [apply silent_load|intros]. apply silent_bind; [exact S2|intros].
        apply silent_bind; [apply silent_load|intros; apply silent_ret]. }
      destruct (S4 _ _ _ E4) as (p4 & G4 & ->). cbn [strc] in *.
      rewrite G4, G3, G2, G1, !app_nil_r. f_equal. apply same_calls. }
    change (crypto_aead_decrypt L mc cf) with (a_dec (ref_aead L mc cf)) in Z.
    rewrite E5 in Z |- *.
    destruct (dec_fin k npub mlen c m e (St (m1 ++ [map Some T]) t4)) as [a s| | |] eqn:F; try discriminate.
    injection Z as Ea _ _. eexists a, _. split; [reflexivity|]. cbn [strc].
    destruct (Spec.isap_decrypt I K Nn A Y) eqn:ED; subst a.
    - assert (He : e = 16). { destruct (N.eq_dec e 16) as [|Q]; auto. apply Hd in Q. discriminate. }
      rewrite He in F. change (0 =? 0)%Z with true. cbv iota.
      assert (Hml2 : has (m1 ++ [map Some T]) mlen (word_le 8 (N.of_nat n))) by now apply has_app.
      unfold dec_fin, if_ at 1 in F. unfold bind at 1 in F. cbn [branch emit bind ret smem strc] in F.
      change (16 =? ISAP_TAG_SZ) with true in F. cbv iota in F.
      assert (S2 : silent (load_ull cf mlen)) by (apply silent_bind; [apply silent_loadn|intros; apply silent_ret]).
      destruct (runs_load_ull cf mlen (N.of_nat n) _ Hml2 Al ltac:(lia) (EBr true :: t4)) as (t5 & F5).
      unfold bind at 1 in F. rewrite F5 in F. destruct (S2 _ _ _ F5) as (p5 & G5 & ->).
      cbn [strc] in G5. rewrite perms_cons, !app_nil_r in G5.
      unfold if_ in F. unfold bind in F at 1. unfold bind in F at 1. cbn [branch emit bind ret smem strc] in F.
      destruct (runs_load_ull cf mlen (N.of_nat n) _ Hml2 Al ltac:(lia) (EBr true :: t5)) as (t6 & F6).
      destruct (0 <? N.of_nat n) eqn:Z0.
      + unfold bind in F at 1. rewrite F6 in F. destruct (S2 _ _ _ F6) as (p6 & G6 & ->).
        cbn [strc] in G6. rewrite perms_cons, !app_nil_r in G6.
        destruct (isap_enc L mc k npub c (N.of_nat n) m _) as [u sv| | |] eqn:F7; try discriminate.
        injection F as <-.
        destruct (calls_isap_enc L I mc maxr okb Hmc Hll _ _ _ _ _ _ _ _ F7) as (p7 & G7 & ->).
        cbn [strc] in *. rewrite G7, G6, G5, P4, <- app_assoc. do 2 f_equal. apply same_calls; auto. lia.
      + injection F as <-. cbn [strc]. rewrite perms_cons, G5, P4, !app_nil_r.
        unfold calls_enc. replace (n =? 0)%nat with true by lia. now rewrite app_nil_r.
    - assert (He : e <> 16) by now apply Hd.
      rewrite (dec_fin_reject _ _ _ _ _ _ _ He) in F. injection F as <-. change (-1 =? 0)%Z with false. cbv iota.
      cbn [strc]. now rewrite perms_cons, P4, !app_nil_r.
  Qed.
End Ref.

(* The four builds. *)
Lemma v_ct v cf : lib_ct (v_lib v cf).
Proof. destruct v; [exact (ascon_ct cf)|exact (keccak_ct cf)|exact (ascon_ct cf)|exact (keccak_ct cf)]. Qed.
Lemma v_calls v cf : lib_calls (v_lib v cf).
Proof. destruct v; [exact (ascon_calls cf)|exact (keccak_calls cf)|exact (ascon_calls cf)|exact (keccak_calls cf)]. Qed.
Lemma v_grows v cf : lib_grows (v_lib v cf).
Proof. destruct v; [exact (ascon_grows cf)|exact (keccak_grows cf)|exact (ascon_grows cf)|exact (keccak_grows cf)]. Qed.


Lemma v_enc_trace v cf mm mm' c clen m ad npub k K Nn A T K' Nn' A' T' :
  ref_locals v cf mm ->
  ref_enc_valid v cf mm c clen m ad npub k K Nn A T ->
  ref_enc_valid v cf mm' c clen m ad npub k K' Nn' A' T' ->
  length A = length A' -> length T = length T' -> layout mm mm' ->
  forall t, exists s s',
    a_enc (ref_impl v cf) c clen m (N.of_nat (length T)) ad (N.of_nat (length A)) npub k (St mm t) = Ok 0%Z s /\
    a_enc (ref_impl v cf) c clen m (N.of_nat (length T)) ad (N.of_nat (length A)) npub k (St mm' t) = Ok 0%Z s' /\
    strc s = strc s'.
Proof. apply (ref_enc_trace _ _ _ _ _ cf (v_libok v cf) (v_macok v) (v_ct v cf)). Qed.

Lemma v_dec_trace v cf mm mm' m mlen c ad npub k K Nn A Y K' Nn' A' Y' :
  ref_locals v cf mm ->
  ref_dec_valid v cf mm m mlen c ad npub k K Nn A Y ->
  ref_dec_valid v cf mm' m mlen c ad npub k K' Nn' A' Y' ->
  length A = length A' -> length Y = length Y' -> layout mm mm' ->
  forall t, exists r s r' s' t0 u u',
    a_dec (ref_impl v cf) m mlen c (N.of_nat (length Y)) ad (N.of_nat (length A)) npub k (St mm t) = Ok r s /\
    a_dec (ref_impl v cf) m mlen c (N.of_nat (length Y)) ad (N.of_nat (length A)) npub k (St mm' t) = Ok r' s' /\
    strc s = u ++ EBr (r =? 0)%Z :: t0 /\ strc s' = u' ++ EBr (r' =? 0)%Z :: t0 /\
    (r <> 0%Z -> u = []) /\ (r' <> 0%Z -> u' = []) /\ (r = r' -> u = u').
Proof. apply (ref_dec_trace _ _ _ _ _ cf (v_libok v cf) (v_macok v) (v_ct v cf) (v_grows v cf)). Qed.

Lemma v_enc_calls v cf mm c clen m ad npub k K Nn A T :
  ref_locals v cf mm -> ref_enc_valid v cf mm c clen m ad npub k K Nn A T ->
  forall t, exists s,
    a_enc (ref_impl v cf) c clen m (N.of_nat (length T)) ad (N.of_nat (length A)) npub k (St mm t) = Ok 0%Z s /\
    perms (strc s) = perms t ++ calls_enc (v_inst v) (length T) ++ calls_mac (v_inst v) (length A) (length T).
Proof. apply (ref_enc_calls _ _ _ _ _ cf (v_libok v cf) (v_macok v) (v_calls v cf)). Qed.

Lemma v_dec_calls v cf mm m mlen c ad npub k K Nn A Y :
  ref_locals v cf mm -> ref_dec_valid v cf mm m mlen c ad npub k K Nn A Y ->
  forall t, exists r s,
    a_dec (ref_impl v cf) m mlen c (N.of_nat (length Y)) ad (N.of_nat (length A)) npub k (St mm t) = Ok r s /\
    perms (strc s) = perms t ++ calls_mac (v_inst v) (length A) (length Y - 16) ++
      (if (r =? 0)%Z then calls_enc (v_inst v) (length Y - 16) else []).
Proof. apply (ref_dec_calls _ _ _ _ _ cf (v_libok v cf) (v_macok v) (v_calls v cf)). Qed.

Lemma sum_app a b : fold_right N.add 0 (a ++ b) = fold_right N.add 0 a + fold_right N.add 0 b.
Proof. induction a as [|x a IH]; cbn [app fold_right]; [reflexivity|]. rewrite IH. lia. Qed.
Lemma sum_repeat x n : fold_right N.add 0 (repeat x n) = x * N.of_nat n.
Proof. induction n as [|n IH]; cbn [repeat fold_right]; [lia|]. rewrite IH. lia. Qed.

Lemma v_work_formula v a n :
  let I := v_inst v in
  length (calls_mac I a n) = (a / i_rate I + n / i_rate I + 133)%nat /\
  length (calls_enc I n) = (if n =? 0 then 0 else 129 + (n + i_rate I - 1) / i_rate I)%nat /\
  fold_right N.add 0 (calls_mac I a n) =
    N.of_nat (i_sH I * (a / i_rate I + n / i_rate I + 4) + 2 * i_sK I + 127 * i_sB I) /\
  fold_right N.add 0 (calls_enc I n) =
    N.of_nat (if (n =? 0)%nat then 0 else 2 * i_sK I + 127 * i_sB I + i_sE I * ((n + i_rate I - 1) / i_rate I)).
Proof.
  cbv zeta. generalize (v_inst v) as I. intros I. unfold calls_mac, calls_enc, calls_rk.
  assert (E : forall x y, length (x :: repeat y 127 ++ [x : N]) = 129%nat) by reflexivity.
  assert (F : forall x y, fold_right N.add 0 (x :: repeat y 127 ++ [x]) = 2 * x + 127 * y).
  { intros. cbn [fold_right]. rewrite sum_app, sum_repeat. cbn [fold_right]. change (N.of_nat 127) with 127. lia. }
  set (p := (a / i_rate I + n / i_rate I)%nat). set (q := ((n + i_rate I - 1) / i_rate I)%nat).
  split; [|split; [|split]].
  - rewrite !app_length, E, repeat_length. cbn [length]. lia.
  - destruct (n =? 0)%nat; auto. rewrite app_length, E, repeat_length. reflexivity.
  - rewrite !sum_app, F, sum_repeat. cbn [fold_right]. rewrite !Nat2N.inj_add, !Nat2N.inj_mul, !Nat2N.inj_add. 
    change (N.of_nat 127) with 127. change (N.of_nat 2) with 2. change (N.of_nat 3) with 3. change (N.of_nat 4) with 4. lia.
  - destruct (n =? 0)%nat; auto. rewrite sum_app, F, sum_repeat. rewrite !Nat2N.inj_add, !Nat2N.inj_mul.
    change (N.of_nat 127) with 127. change (N.of_nat 2) with 2. lia.
Qed.
