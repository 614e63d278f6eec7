(* Decryption of fewer than 16 bytes by the optimised implementations: undefined behaviour. Proofs only. *)
From Verif Require Import Base SpecPerm Words Mem Vocab MemProof RefLib RefProof RefAead ApiProof OptPerm OptIsap OptStp A128 KIsap KArmPerm KArm AvxA.
From Verif Require RefIsap ApiCode.
Open Scope N_scope.
Open Scope cm_scope.

(* f keeps the length L of block b and ends normally with a value in Q, or is undefined. *)
Definition pu {A} (b L : nat) (f : M A) (Q : A -> Prop) : Prop :=
  forall m t, length (blk m b) = L -> (b < length m)%nat ->
  match f (St m t) with
  | Ok a s => length (blk (smem s) b) = L /\ length (smem s) = length m /\ Q a
  | UB => True
  | _ => False
  end.

Definition any1 {A} (_ : A) : Prop := True.

Section Pu.
  Context {b L : nat}.
  Notation pu := (pu b L).

  Lemma pu_ret {A} (Q : A -> Prop) a : Q a -> pu (ret a) Q.
  Proof. intros H m t H1 H2. cbn. auto. Qed.
  Lemma pu_bind {A B} (R : A -> Prop) (Q : B -> Prop) f g : pu f R -> (forall a, R a -> pu (g a) Q) -> pu (bind f g) Q.
  Proof.
    intros Hf Hg m t H1 H2. unfold bind. specialize (Hf m t H1 H2). destruct (f (St m t)) as [a [m1 t1]| | |]; auto.
    cbn [smem] in Hf. destruct Hf as (E1 & E2 & Ha). specialize (Hg a Ha m1 t1 E1 ltac:(lia)). destruct (g a (St m1 t1)); auto.
    destruct Hg as (? & ? & ?). split; auto. split; auto. lia.
  Qed.
  Lemma pu_weaken {A} (R Q : A -> Prop) f : pu f R -> (forall a, R a -> Q a) -> pu f Q.
  Proof. intros H HQ m t H1 H2. specialize (H m t H1 H2). destruct (f (St m t)); intuition. Qed.
  Lemma pu_false {A} (Q : A -> Prop) f : pu f (fun _ => False) -> pu f Q.
  Proof. intros H. apply (pu_weaken _ _ _ H). tauto. Qed.
  (* After something impossible nothing else matters. *)
  Lemma pu_bind_false {A B} (Q : B -> Prop) (f : M A) g : pu f (fun _ => False) -> pu (bind f g) Q.
  Proof. intros H. apply (pu_bind (fun _ => False)); auto. tauto. Qed.
  Lemma pu_fail {A} (Q : A -> Prop) : pu fail_ub Q.
  Proof. intros m t H1 H2. exact Logic.I. Qed.
  Lemma pu_emit e : pu (emit e) any1.
  Proof. intros m t H1 H2. cbn. unfold any1. auto. Qed.
  Lemma pu_branch x : pu (branch x) (fun y => y = x).
  Proof. apply (pu_bind any1); [apply pu_emit|]. intros. now apply pu_ret. Qed.
  Lemma pu_if {A} (Q : A -> Prop) x f g : (x = true -> pu f Q) -> (x = false -> pu g Q) -> pu (if_ x f g) Q.
  Proof. intros H1 H2. unfold if_. eapply pu_bind; [apply pu_branch|]. intros y ->. destruct x; auto. Qed.

  Lemma pu_load_ p : pu (load_ p) (fun _ => pb p = b -> po p < N.of_nat L).
  Proof.
    intros m t H1 H2. unfold load_. cbn [smem]. destruct (rd1 m p) eqn:E; auto. split; auto. split; auto.
    intros Hp. unfold rd1, inside in E. rewrite Hp, H1 in E. destruct (N.ltb_spec (po p) (N.of_nat L)); [auto|discriminate].
  Qed.
  Lemma pu_store_ p v : pu (store_ p v) any1.
  Proof.
    intros m t H1 H2. unfold store_. cbn [smem strc]. unfold wr1. destruct (inside m p); auto. cbn [smem].
    rewrite blk_upd, upd_nth_length. destruct (Nat.eqb_spec b (pb p)) as [E|E].
    - replace (pb p <? length m)%nat with true by (symmetry; apply Nat.ltb_lt; lia). rewrite upd_nth_length, <- E. unfold any1. auto.
    - unfold any1. auto.
  Qed.
  Lemma pu_load p : pu (load p) (fun _ => pb p = b -> po p < N.of_nat L).
  Proof. eapply pu_bind; [apply pu_emit|]. intros. apply pu_load_. Qed.
  Lemma pu_store p v : pu (store p v) any1.
  Proof. eapply pu_bind; [apply pu_emit|]. intros. apply pu_store_. Qed.
  Lemma pu_loads_ n p : pu (loads_ n p) (fun l => length l = n /\ (pb p = b -> (0 < n)%nat -> po p + N.of_nat n <= N.of_nat L)).
  Proof.
    revert p; induction n as [|n IH]; intros p; cbn [loads_]; [apply pu_ret; cbn; split; auto; lia|].
    eapply pu_bind; [apply pu_load_|]. intros v Hv. eapply pu_bind; [apply IH|]. intros vs [Hl Hs]. apply pu_ret. cbn [length padd pb po] in *.
    split; [now rewrite Hl|]. intros Hp _. specialize (Hv Hp). destruct n as [|n]; [lia|]. specialize (Hs Hp ltac:(lia)). lia.
  Qed.
  Lemma pu_stores_ vs p : pu (stores_ vs p) any1.
  Proof.
    revert p; induction vs as [|v vs IH]; intros p; cbn [stores_]; [now apply pu_ret|].
    eapply pu_bind; [apply pu_store_|]. intros. apply IH.
  Qed.
  Lemma pu_loadn cf n p : pu (loadn cf n p) (fun l => length l = n /\ (pb p = b -> (0 < n)%nat -> po p + N.of_nat n <= N.of_nat L)).
  Proof. unfold loadn. destruct (aligned cf p n); [|apply pu_fail]. eapply pu_bind; [apply pu_emit|]. intros. apply pu_loads_. Qed.
  Lemma pu_storen cf vs p : pu (storen cf vs p) any1.
  Proof. unfold storen. destruct (aligned cf p (length vs)); [|apply pu_fail]. eapply pu_bind; [apply pu_emit|]. intros. apply pu_stores_. Qed.
  Lemma pu_load_ull cf p : pu (RefIsap.load_ull cf p) (fun _ => pb p = b -> po p + 8 <= N.of_nat L).
  Proof. eapply pu_bind; [apply pu_loadn|]. intros l [_ H]. apply pu_ret. intros Hp. apply (H Hp). lia. Qed.
  Lemma pu_store_ull cf p v : pu (RefIsap.store_ull cf p v) any1.
  Proof. apply pu_storen. Qed.
  Lemma pu_load_lanes cf n p : pu (RefIsap.load_lanes cf n p) any1.
  Proof.
    revert p; induction n as [|n IH]; intros p; cbn [RefIsap.load_lanes]; [now apply pu_ret|].
    eapply pu_bind; [apply pu_loadn|]. intros. eapply pu_bind; [apply IH|]. intros. now apply pu_ret.
  Qed.
  Lemma pu_store_lanes cf ws p : pu (RefIsap.store_lanes cf ws p) any1.
  Proof.
    revert p; induction ws as [|w ws IH]; intros p; cbn [RefIsap.store_lanes]; [now apply pu_ret|].
    eapply pu_bind; [apply pu_storen|]. intros. apply IH.
  Qed.

  Lemma pu_with_block {A} (Q : A -> Prop) n f : (forall p, pu (f p) Q) -> pu (with_block n f) Q.
  Proof.
    intros H m t H1 H2. unfold with_block. cbn [smem strc].
    assert (E1 : length (blk (m ++ [uninit n]) b) = L) by (rewrite blk_app1; auto).
    assert (E2 : (b < length (m ++ [uninit n]))%nat) by (rewrite app_length; lia).
    specialize (H (P (length m) 0) (m ++ [uninit n]) t E1 E2). destruct (f _ _) as [a [m1 t1]| | |]; auto. cbn [smem strc] in *.
    destruct H as (E & El & Ha). rewrite app_length in El. cbn [length] in El.
    destruct m1 as [|m0 x _] using rev_ind; [cbn in El; lia|]. rewrite removelast_last. rewrite app_length in El. cbn [length] in El.
    rewrite blk_app1 in E by lia. split; auto. split; auto. lia.
  Qed.

  Lemma pu_for_nat {A} (I : nat -> A -> Prop) (body : N -> A -> M A) n : forall i j a,
    (forall k a, (j <= k < j + n)%nat -> I k a -> pu (body (i + N.of_nat (k - j)) a) (I (S k))) ->
    I j a -> pu (for_nat n i body a) (I (j + n)%nat).
  Proof.
    induction n as [|n IH]; intros i j a H HI; cbn [for_nat].
    - rewrite Nat.add_0_r. eapply pu_bind; [apply pu_branch|]. intros. now apply pu_ret.
    - eapply pu_bind; [apply pu_branch|]. intros _ _. eapply pu_bind.
      + specialize (H j a ltac:(lia) HI). rewrite Nat.sub_diag in H. change (N.of_nat 0) with 0 in H. rewrite N.add_0_r in H. exact H.
      + intros a' HI'. replace (j + S n)%nat with (S j + n)%nat by lia. apply IH; auto.
        intros k x Hk Hx. specialize (H k x ltac:(lia) Hx). now replace (i + 1 + N.of_nat (k - S j)) with (i + N.of_nat (k - j)) by lia.
  Qed.
  Lemma pu_for {A} (I : nat -> A -> Prop) n y (body : N -> A -> M A) a : y = N.of_nat n ->
    (forall k a, (k < n)%nat -> I k a -> pu (body (N.of_nat k) a) (I (S k))) -> I 0%nat a -> pu (for_ 0 y body a) (I n).
  Proof.
    intros -> H HI. unfold for_. replace (N.to_nat (N.of_nat n - 0)) with n by lia.
    apply (pu_for_nat I body n 0 0 a); auto. intros k x Hk Hx. rewrite Nat.sub_0_r, N.add_0_l. apply H; auto. lia.
  Qed.
  Lemma pu_for_any {A} y (body : N -> A -> M A) a : (forall i a, pu (body i a) any1) -> pu (for_ 0 y body a) any1.
  Proof. intros H. apply (pu_for (fun _ => any1) (N.to_nat y)); unfold any1; auto. lia. Qed.

  Lemma pu_while {A} (I : nat -> A -> Prop) cond (body : A -> M A) n : forall fuel j a,
    (forall k a, (j <= k <= n)%nat -> I k a -> cond a = (k <? n)%nat) ->
    (forall k a, (j <= k < n)%nat -> I k a -> pu (body a) (I (S k))) ->
    (j <= n)%nat -> (n - j < fuel)%nat -> I j a -> pu (while_ fuel cond body a) (I n).
  Proof.
    induction fuel as [|fuel IH]; intros j a Hc Hb Hj Hf HI; [lia|]. cbn [while_]. rewrite (Hc j a ltac:(lia) HI).
    eapply pu_bind; [apply pu_branch|]. intros c ->. destruct (Nat.ltb_spec j n) as [E|E].
    - eapply pu_bind; [apply (Hb j); [lia|exact HI]|]. intros a' HI'.
      apply (IH (S j)); [intros; apply Hc; auto; lia|intros; apply Hb; auto; lia|lia|lia|exact HI'].
    - apply pu_ret. replace n with j by lia. exact HI.
  Qed.
  Lemma pu_while0 {A} (I : nat -> A -> Prop) cond (body : A -> M A) n fuel a :
    (forall k a, (k <= n)%nat -> I k a -> cond a = (k <? n)%nat) ->
    (forall k a, (k < n)%nat -> I k a -> pu (body a) (I (S k))) ->
    (n < fuel)%nat -> I 0%nat a -> pu (while_ fuel cond body a) (I n).
  Proof. intros Hc Hb Hf HI. apply (pu_while I cond body n fuel 0 a); auto; try lia; intros; [apply Hc|apply Hb]; auto; lia. Qed.

  Lemma pu_perm a r s : pu (perm a r s) any1.
  Proof. eapply pu_bind; [apply pu_emit|]. intros. now apply pu_ret. Qed.
  Lemma pu_load_word a cf p : pu (load_word a cf p) (fun _ => pb p = b -> po p + 8 <= N.of_nat L).
  Proof. eapply pu_bind; [apply pu_load_ull|]. intros. now apply pu_ret. Qed.
End Pu.

(* Everything else is a chain of steps that need no invariant. *)
Ltac pu_atom :=
  first [ eapply pu_weaken; [first [apply pu_load_word|apply pu_load_ull|apply pu_loadn|apply pu_load|apply pu_perm|apply pu_store|apply pu_storen|
                                     apply pu_store_ull|apply pu_emit|apply pu_load_lanes|apply pu_store_lanes|apply pu_stores_|apply pu_loads_]|];
          intros; exact Logic.I ].
Ltac pu_go :=
  repeat first
    [ progress intros
    | pu_atom
    | apply pu_ret; exact Logic.I
    | apply pu_bind with (R := any1)
    | apply pu_with_block
    | apply pu_if
    | apply pu_for_any ].

(* isap_mac called with a length of n bytes reads n bytes at c. *)
Definition mac_reads (W : N) (mac : forall (k npub ad : ptr) (adlen : N) (c : ptr) (clen : N) (tag : ptr), M unit) : Prop :=
  forall b L k npub ad adlen c n tag, pb c = b -> adlen < 2 ^ 64 -> n < 2 ^ 64 -> 0 < n mod 2 ^ W -> N.of_nat L < po c + n mod 2 ^ W ->
  pu b L (mac k npub ad adlen c n tag) (fun _ => False).

(* Calls in which the length is below 16 and the object c points into ends before c + 2^W - 16 + clen. *)
Definition short_call (W : N) (cf : cfg) (mm : mem) (mlen c : ptr) (clen : N) : Prop :=
  clen < 16 /\ room mm mlen 8 /\ aligned cf mlen 8 = true /\ (pb c < length mm)%nat /\
  N.of_nat (length (blk mm (pb c))) < po c + (2 ^ W - 16 + clen).

Lemma short_mod W clen : 4 < W <= 64 -> clen < 16 -> (2 ^ 64 - 16 + clen) mod 2 ^ W = 2 ^ W - 16 + clen.
Proof.
  intros HW Hc.
  assert (E : 2 ^ 64 = 2 ^ W * 2 ^ (64 - W)) by (rewrite <- N.pow_add_r; f_equal; lia).
  assert (G : 2 ^ 5 <= 2 ^ W) by (apply N.pow_le_mono_r; lia). change (2 ^ 5) with 32 in G.
  assert (P1 : 2 ^ (64 - W) <> 0) by (apply N.pow_nonzero; lia).
  symmetry. apply (N.mod_unique _ _ (2 ^ (64 - W) - 1)); [lia|]. rewrite E, N.mul_sub_distr_l, N.mul_1_r. nia.
Qed.

Lemma pu_ub {A} b L (f : M A) m : pu b L f (fun _ => False) -> length (blk m b) = L -> (b < length m)%nat -> forall t, f (St m t) = UB.
Proof. intros H E1 E2 t. specialize (H m t E1 E2). destruct (f (St m t)); tauto. Qed.

Lemma bind_ub1 {A B} (f : M A) (g : A -> M B) s : f s = UB -> bind f g s = UB.
Proof. intros H. unfold bind. now rewrite H. Qed.
Lemma bind_ub2 {A B} (f : M A) (g : A -> M B) m a m1 : runs f m a m1 -> (forall t, g a (St m1 t) = UB) -> forall t, bind f g (St m t) = UB.
Proof. intros H1 H2 t. unfold bind. destruct (H1 t) as [t' ->]. apply H2. Qed.
Lemma block_ub {A} n (f : ptr -> M A) m : (forall t, f (P (length m) 0) (St (m ++ [uninit n]) t) = UB) -> forall t, with_block n f (St m t) = UB.
Proof. intros H t. unfold with_block. cbn [smem strc]. now rewrite H. Qed.

(* The beginning common to the two texts of crypto_aead_decrypt. *)
Lemma short_start W cf {A} mac (rest : ptr -> M A) mm mlen c clen k npub ad adlen : 4 < W <= 64 -> mac_reads W mac -> adlen < 2 ^ 64 ->
  short_call W cf mm mlen c clen ->
  forall t, bind (RefIsap.store_ull cf mlen (sub64 clen RefIsap.ISAP_TAG_SZ)) (fun _ => with_block 16 (fun tag =>
    ml <- RefIsap.load_ull cf mlen ;; mac k npub ad adlen c ml tag ;; rest tag)) (St mm t) = UB.
Proof.
  intros HW Hm Had (Hc & Rl & Al & Hpb & Hsz).
  assert (E : sub64 clen RefIsap.ISAP_TAG_SZ = 2 ^ 64 - 16 + clen).
  { unfold sub64. replace (clen + 2 ^ 64 - RefIsap.ISAP_TAG_SZ) with (2 ^ 64 - 16 + clen) by (unfold RefIsap.ISAP_TAG_SZ; lia). apply N.mod_small. lia. }
  rewrite E. set (n := 2 ^ 64 - 16 + clen).
  assert (Hn64 : n < 2 ^ 64) by (unfold n; lia).
  assert (Hl8 : room mm mlen (length (word_le 8 n))) by now rewrite word_le_length.
  eapply bind_ub2; [apply runs_store_ull; auto|]. apply block_ub.
  eapply bind_ub2; [apply (runs_load_ull cf mlen n); auto; now apply has_app, has_putp_same|].
  intros t. apply bind_ub1.
  assert (Elen : length (putp mm mlen (word_le 8 n)) = length mm) by (unfold putp, put; apply upd_nth_length).
  eapply (pu_ub (pb c)).
  - apply (Hm (pb c) (length (blk mm (pb c)))); auto; unfold n; rewrite (short_mod W clen HW Hc); [|exact Hsz].
    assert (G : 2 ^ 5 <= 2 ^ W) by (apply N.pow_le_mono_r; lia). change (2 ^ 5) with 32 in G. lia.
  - rewrite blk_app1 by lia. now apply blk_putp_len.
  - rewrite app_length. lia.
Qed.

Lemma short_api W cf enc mac mm m mlen c clen ad adlen npub k : 4 < W <= 64 -> mac_reads W mac -> adlen < 2 ^ 64 ->
  short_call W cf mm mlen c clen -> forall t, a_dec (api_aead cf enc mac) m mlen c clen ad adlen npub k (St mm t) = UB.
Proof. intros HW Hm Had H. apply (short_start W cf mac _ mm mlen c clen k npub ad adlen HW Hm Had H). Qed.

Notation reads_n b L src n := (fun _ => pb src = b -> 0 < n -> po src + n <= N.of_nat L).

(* ---------- isapa128av20 ---------- *)

Lemma pu_absorb_lanes {b L} a cf s src len : len < 2 ^ 64 -> pu b L (ABSORB_LANES a cf s src len) (reads_n b L src len).
Proof.
  intros Hl. unfold ABSORB_LANES.
  set (n := N.to_nat (len / 8)).
  assert (Hn : N.of_nat n = len / 8) by (unfold n; lia).
  pose proof (N.div_mod len 8 ltac:(lia)) as Hd. pose proof (N.mod_lt len 8 ltac:(lia)) as Hm.
  apply pu_bind with (R := fun st : state * ptr * N => snd (fst st) = padd src (8 * N.of_nat n) /\ snd st = len mod 8 /\
                             (pb src = b -> 0 < N.of_nat n -> po src + 8 * N.of_nat n <= N.of_nat L)).
  - eapply pu_weaken.
    + apply (pu_while0 (fun k (st : state * ptr * N) => snd (fst st) = padd src (8 * N.of_nat k) /\ snd st = len - 8 * N.of_nat k /\
                             (pb src = b -> 0 < N.of_nat k -> po src + 8 * N.of_nat k <= N.of_nat L)) _ _ n); [| |lia|].
      * intros k [[s' p] l] Hk (_ & E & _). cbn [snd] in *. subst l. destruct (N.leb_spec 8 (len - 8 * N.of_nat k)); destruct (Nat.ltb_spec k n); lia.
      * intros k [[s' p] l] Hk (E1 & E2 & E3). cbn [fst snd] in *. subst p l. unfold absorb_full.
        eapply pu_bind; [apply pu_load_word|]. intros v Hv. cbn [padd pb po] in Hv. eapply pu_bind; [apply pu_perm|]. intros s1 _. apply pu_ret. cbn [fst snd].
        split; [|split].
        -- unfold padd. cbn [pb po]. f_equal. lia.
        -- rewrite sub64_small; lia.
        -- intros Hb _. specialize (Hv Hb). lia.
      * cbn [fst snd]. split; [|split; [lia|lia]]. unfold padd. destruct src as [sb so]. cbn [pb po]. f_equal. lia.
    + intros [[s' p] l] (E1 & E2 & E3). cbn [fst snd] in *. split; auto. split; auto. lia.
  - intros [[s' p] l] (E1 & E2 & E3). cbn [fst snd] in *. subst p l. apply pu_if; intros Hz.
    + apply N.ltb_lt in Hz.
      apply pu_bind with (R := fun tp : N * ptr => pb src = b -> po src + len <= N.of_nat L).
      * eapply pu_weaken.
        -- apply (pu_for (fun k (tp : N * ptr) => snd tp = padd src (8 * N.of_nat n + N.of_nat k) /\
                             (pb src = b -> 0 < N.of_nat k -> po src + 8 * N.of_nat n + N.of_nat k <= N.of_nat L)) (N.to_nat (len mod 8))).
           ++ lia.
           ++ intros k [t0 p] Hk [E _]. cbn [snd] in E. subst p. eapply pu_bind; [apply pu_load|]. intros v Hv. cbn [padd pb po] in Hv. apply pu_ret.
              cbn [snd]. split; [unfold padd; cbn [pb po]; f_equal; lia|]. intros Hb _. specialize (Hv Hb). lia.
           ++ cbn [snd]. split; [|lia]. f_equal. lia.
        -- intros [t0 p] [_ H] Hb. specialize (H Hb ltac:(lia)). lia.
      * intros tp H. eapply pu_weaken; [apply pu_perm|]. intros _ _ Hb _. now apply H.
    + apply N.ltb_ge in Hz. eapply pu_weaken; [apply pu_perm|]. intros _ _ Hb Hp. specialize (E3 Hb ltac:(lia)). lia.
Qed.

Lemma opt_mac_state {b L} a cf npub ad adlen c n : pb c = b -> adlen < 2 ^ 64 -> n < 2 ^ 64 -> 0 < n -> N.of_nat L < po c + n ->
  pu b L (mac_state a cf npub ad adlen c n) (fun _ => False).
Proof.
  intros Hb Ha Hn H0 HL. unfold mac_state.
  do 3 (eapply pu_bind; [apply pu_load_word|]; intros ? _). eapply pu_bind; [apply pu_perm|]; intros ? _.
  eapply pu_bind; [now apply pu_absorb_lanes|]; intros ? _. eapply pu_weaken; [now apply pu_absorb_lanes|].
  intros z H; cbn beta in H. specialize (H Hb H0). lia.
Qed.
Lemma opt_reads a cf : mac_reads 64 (OptIsap.isap_mac a cf).
Proof.
  intros b L k npub ad adlen c n tag Hb Ha Hn H0 HL. rewrite N.mod_small in * by auto. apply pu_bind_false. now apply opt_mac_state.
Qed.
Lemma stp_reads a cf : mac_reads 64 (OptStp.isap_mac a cf).
Proof.
  intros b L k npub ad adlen c n tag Hb Ha Hn H0 HL. rewrite N.mod_small in * by auto. apply pu_bind_false. now apply opt_mac_state.
Qed.

(* ---------- isapa128v20/opt_64 and isapa128av20/avx_512: lengths are unsigned long ---------- *)

Lemma pu_lane8 {b L} (w : N) (src : ptr) r o : r < 8 -> o + r < w -> o mod w = o ->
  pu b L (for_ 0 8 (fun i r0 =>
         let '(lane8, idx8) := r0 in
         if_ (i <? r)
           (v <- load (padd src idx8) ;; ret (lane8 ++ [v], (idx8 + 1) mod w))
           (if_ (i =? r) (ret (lane8 ++ [0x80], idx8)) (ret (lane8 ++ [0], idx8)))) (@nil N, o))
    (fun _ => pb src = b -> 0 < r -> po src + o + r <= N.of_nat L).
Proof.
  intros Hr Ho Hm. eapply pu_weaken.
  - apply (pu_for (fun k (x : list N * N) => snd x = o + N.min (N.of_nat k) r /\
             (pb src = b -> 0 < N.min (N.of_nat k) r -> po src + o + N.min (N.of_nat k) r <= N.of_nat L)) 8%nat).
    + reflexivity.
    + intros k [l i8] Hk [E E2]. cbn [snd] in *. subst i8. apply pu_if; intros Hlt.
      * apply N.ltb_lt in Hlt. eapply pu_bind; [apply pu_load|]. intros v Hv. cbn [padd pb po] in Hv. apply pu_ret. cbn [snd].
        replace (N.min (N.of_nat k) r) with (N.of_nat k) in * by lia. replace (N.min (N.of_nat (S k)) r) with (N.of_nat k + 1) by lia.
        split; [rewrite N.mod_small; lia|]. intros Hb _. specialize (Hv Hb). lia.
      * apply N.ltb_ge in Hlt. replace (N.min (N.of_nat (S k)) r) with (N.min (N.of_nat k) r) by lia.
        apply pu_if; intros _; apply pu_ret; auto.
    + cbn [snd]. split; lia.
  - intros [l i8] [_ H] Hb H0. cbn [snd] in H. specialize (H Hb ltac:(lia)). lia.
Qed.

Lemma subw UL x y : y <= x -> x < 2 ^ UL -> (x + 2 ^ UL - y) mod 2 ^ UL = x - y.
Proof.
  intros H1 H2. symmetry. apply (N.mod_unique _ _ 1); lia.
Qed.

(* The loop over full blocks, in the shape common to both: t is the MAC step. *)
Lemma pu_lanes_loop {b L} UL (full : ptr -> state * N * N -> M (state * N * N)) src s len :
  (forall s idx rem, pu b L (full src (s, idx, rem)) (fun st => snd (fst st) = (idx + 1) mod 2 ^ UL /\ snd st = (rem + 2 ^ UL - 8) mod 2 ^ UL /\
      (pb src = b -> po src + 8 * idx + 8 <= N.of_nat L))) ->
  len < 2 ^ UL ->
  pu b L (while_ (S (N.to_nat (len / 8))) (fun st => 8 <? snd st) (full src) (s, 0, len))
    (fun st => exists q, snd (fst st) = q /\ len = 8 * q + snd st /\ snd st <= 8 /\ (0 < len -> 0 < snd st) /\
               (pb src = b -> 0 < q -> po src + 8 * q <= N.of_nat L)).
Proof.
  intros Hf Hl.
  set (n := N.to_nat ((len - 1) / 8)).
  assert (Hn : N.of_nat n = (len - 1) / 8) by (unfold n; lia).
  pose proof (N.div_mod (len - 1) 8 ltac:(lia)) as Hd. pose proof (N.mod_lt (len - 1) 8 ltac:(lia)) as Hm.
  assert (Hq : (len - 1) / 8 <= len / 8) by (apply N.div_le_mono; lia).
  eapply pu_weaken.
  - apply (pu_while0 (fun k (st : state * N * N) => snd (fst st) = N.of_nat k /\ snd st = len - 8 * N.of_nat k /\ 8 * N.of_nat k <= len /\
                        (pb src = b -> 0 < N.of_nat k -> po src + 8 * N.of_nat k <= N.of_nat L)) _ _ n); [| |lia|].
    + intros k [[s' i] r] Hk (_ & E & _). cbn [snd] in *. subst r. destruct (N.ltb_spec 8 (len - 8 * N.of_nat k)); destruct (Nat.ltb_spec k n); lia.
    + intros k [[s' i] r] Hk (E1 & E2 & E3 & E4). cbn [fst snd] in *. subst i r. eapply pu_weaken; [apply Hf|].
      intros [[s1 i] r] (F1 & F2 & F3). cbn [fst snd] in *. subst i r. split; [|split; [|split]].
      * rewrite N.mod_small; lia.
      * rewrite subw; lia.
      * lia.
      * intros Hb _. specialize (F3 Hb). lia.
    + cbn [fst snd]. split; [|split; [|split]]; lia.
  - intros [[s1 i] r] (E1 & E2 & E3 & E4). cbn [fst snd] in *. exists i. subst i. split; auto. split; [lia|]. split; [lia|]. split; [lia|]. exact E4.
Qed.

Lemma pu_absorb_mac {b L} a UL cf s src len : 3 <= UL -> pu b L (A128.ABSORB_MAC a UL cf s src len) (reads_n b L src (len mod 2 ^ UL)).
Proof.
  intros HU. unfold A128.ABSORB_MAC, ul. set (l := len mod 2 ^ UL).
  assert (Hl : l < 2 ^ UL) by (apply N.mod_lt, N.pow_nonzero; lia). clearbody l.
  eapply pu_bind.
  - apply (pu_lanes_loop UL (absorb_mac_full a UL cf)); [|exact Hl].
    intros s0 idx rem. unfold absorb_mac_full. eapply pu_bind; [apply pu_load_word|]. intros v Hv. cbn [padd pb po] in Hv.
    eapply pu_bind; [apply pu_perm|]. intros s1 _. apply pu_ret. cbn [fst snd]. unfold ul, subl, ul. split; [reflexivity|split; [reflexivity|exact Hv]].
  - intros [[s1 i] r] (q & E1 & E2 & E3 & E4 & E5). cbn [fst snd] in *. subst i. apply pu_if; intros Hr.
    + apply N.eqb_eq in Hr. subst r. eapply pu_bind; [apply pu_load_word|]. intros v Hv. cbn [padd pb po] in Hv.
      eapply pu_bind; [apply pu_perm|]. intros. eapply pu_weaken; [apply pu_perm|]. intros _ _ Hb _. specialize (Hv Hb). lia.
    + apply N.eqb_neq in Hr. replace ((q * 8) mod 2 ^ UL) with (8 * q) by (rewrite N.mod_small; lia).
      eapply pu_bind; [apply (pu_lane8 (2 ^ UL)); [lia|lia|apply N.mod_small; lia]|]. intros x Hx.
      eapply pu_weaken; [apply pu_perm|]. intros _ _ Hb H0. specialize (Hx Hb ltac:(lia)). lia.
Qed.

Lemma a64_reads a UL cf : 3 <= UL -> mac_reads UL (isap_mac_64 a UL cf).
Proof.
  intros HU b L k npub ad adlen c n tag Hb Ha Hn H0 HL. unfold isap_mac_64. apply pu_with_block. intros state.
  do 3 (eapply pu_bind; [apply pu_load_word|]; intros ? _). eapply pu_bind; [apply pu_perm|]; intros ? _.
  eapply pu_bind; [now apply pu_absorb_mac|]; intros ? _. apply pu_bind_false. eapply pu_weaken; [now apply pu_absorb_mac|].
  intros z H; cbn beta in H. specialize (H Hb H0). lia.
Qed.

Lemma pu_absorb_lanesA {b L} UL cf s src len : 3 <= UL -> pu b L (ABSORB_LANESA UL cf s src len) (reads_n b L src (len mod 2 ^ UL)).
Proof.
  intros HU. unfold ABSORB_LANESA, ulA. set (l := len mod 2 ^ UL).
  assert (Hl : l < 2 ^ UL) by (apply N.mod_lt, N.pow_nonzero; lia). clearbody l.
  eapply pu_bind.
  - apply (pu_lanes_loop UL (absorb_fullA UL cf)); [|exact Hl].
    intros s0 idx rem. unfold absorb_fullA. eapply pu_bind; [apply pu_load_word|]. intros v Hv. cbn [padd pb po] in Hv.
    eapply pu_bind; [apply pu_perm|]. intros s1 _. apply pu_ret. cbn [fst snd]. unfold ulA, sublA, ulA. split; [reflexivity|split; [reflexivity|exact Hv]].
  - intros [[s1 i] r] (q & E1 & E2 & E3 & E4 & E5). cbn [fst snd] in *. subst i. apply pu_if; intros Hr.
    + apply N.eqb_eq in Hr. subst r. eapply pu_bind; [apply pu_load_word|]. intros v Hv. cbn [padd pb po] in Hv.
      eapply pu_bind; [apply pu_perm|]. intros. apply pu_ret. intros Hb _. specialize (Hv Hb). lia.
    + apply N.eqb_neq in Hr. replace ((q * 8) mod 2 ^ UL) with (8 * q) by (rewrite N.mod_small; lia).
      eapply pu_bind; [apply (pu_lane8 (2 ^ UL)); [lia|lia|apply N.mod_small; lia]|]. intros x Hx.
      apply pu_ret. intros Hb H0. specialize (Hx Hb ltac:(lia)). lia.
Qed.
Lemma avxa_reads UL cf : 3 <= UL -> mac_reads UL (isap_macA UL cf).
Proof.
  intros HU b L k npub ad adlen c n tag Hb Ha Hn H0 HL. unfold isap_macA. apply pu_with_block. intros state.
  do 3 (eapply pu_bind; [apply pu_load_word|]; intros ? _). eapply pu_bind; [apply pu_perm|]; intros ? _.
  eapply pu_bind; [now apply pu_absorb_lanesA|]; intros ? _. eapply pu_bind; [apply pu_perm|]; intros ? _.
  apply pu_bind_false. eapply pu_weaken; [now apply pu_absorb_lanesA|].
  intros z H; cbn beta in H. specialize (H Hb H0). lia.
Qed.

(* ---------- isapa128v20/opt_32 and opt_32_armv67m ---------- *)

Lemma pu_absorb_32 {b L} a u cf s src len : len < 2 ^ 64 -> pu b L (absorb_32 a u cf s src len) (reads_n b L src len).
Proof.
  intros Hl. unfold absorb_32.
  set (n := N.to_nat (len / 8)).
  assert (Hn : N.of_nat n = len / 8) by (unfold n; lia).
  pose proof (N.div_mod len 8 ltac:(lia)) as Hd. pose proof (N.mod_lt len 8 ltac:(lia)) as Hm.
  apply pu_bind with (R := fun st : state * ptr * N => snd (fst st) = padd src (8 * N.of_nat n) /\ snd st = len mod 8 /\
                             (pb src = b -> 0 < N.of_nat n -> po src + 8 * N.of_nat n <= N.of_nat L)).
  - eapply pu_weaken.
    + apply (pu_while0 (fun k (st : state * ptr * N) => snd (fst st) = padd src (8 * N.of_nat k) /\ snd st = len - 8 * N.of_nat k /\
                             (pb src = b -> 0 < N.of_nat k -> po src + 8 * N.of_nat k <= N.of_nat L)) _ _ n); [| |lia|].
      * intros k [[s' p] l] Hk (_ & E & _). cbn [snd] in *. subst l. destruct (N.leb_spec 8 (len - 8 * N.of_nat k)); destruct (Nat.ltb_spec k n); lia.
      * intros k [[s' p] l] Hk (E1 & E2 & E3). cbn [fst snd] in *. subst p l. unfold absorb_full_32.
        eapply pu_bind; [apply pu_load_word|]. intros v Hv. cbn [padd pb po] in Hv. eapply pu_bind; [apply pu_perm|]. intros s1 _. apply pu_ret. cbn [fst snd].
        split; [|split].
        -- unfold padd. cbn [pb po]. f_equal. lia.
        -- rewrite sub64_small; lia.
        -- intros Hb _. specialize (Hv Hb). lia.
      * cbn [fst snd]. split; [|split; [lia|lia]]. unfold padd. destruct src as [sb so]. cbn [pb po]. f_equal. lia.
    + intros [[s' p] l] (E1 & E2 & E3). cbn [fst snd] in *. split; auto. split; auto. lia.
  - intros [[s' p] l] (E1 & E2 & E3). cbn [fst snd] in *. subst p l.
    apply pu_bind with (R := fun _ : state => pb src = b -> 0 < len -> po src + len <= N.of_nat L).
    + apply pu_if; intros Hz.
      * apply N.ltb_lt in Hz.
        apply pu_bind with (R := fun tp : N * ptr => pb src = b -> po src + len <= N.of_nat L).
        -- eapply pu_weaken.
          ++ apply (pu_for (fun k (tp : N * ptr) => snd tp = padd src (8 * N.of_nat n + N.of_nat k) /\
                             (pb src = b -> 0 < N.of_nat k -> po src + 8 * N.of_nat n + N.of_nat k <= N.of_nat L)) (N.to_nat (len mod 8))).
            ** lia.
            ** intros k [t0 p] Hk [E _]. cbn [snd] in E. subst p. eapply pu_bind; [apply pu_load|]. intros v Hv. cbn [padd pb po] in Hv. apply pu_ret.
               cbn [snd]. split; [unfold padd; cbn [pb po]; f_equal; lia|]. intros Hb _. specialize (Hv Hb). lia.
            ** cbn [snd]. split; [|lia]. f_equal. lia.
          ++ intros [t0 p] [_ H] Hb. specialize (H Hb ltac:(lia)). lia.
        -- intros tp H. eapply pu_weaken; [apply pu_perm|]. intros _ _ Hb _. now apply H.
      * apply N.ltb_ge in Hz. apply pu_ret. intros Hb Hp. specialize (E3 Hb ltac:(lia)). lia.
    + intros s1 H1. apply pu_if; intros _; [|now apply pu_ret]. eapply pu_weaken; [apply pu_perm|]. intros _ _. exact H1.
Qed.
Lemma a32_reads a u cf : mac_reads 64 (isap_mac_32 a u cf).
Proof.
  intros b L k npub ad adlen c n tag Hb Ha Hn H0 HL. rewrite N.mod_small in * by auto. unfold isap_mac_32.
  do 3 (eapply pu_bind; [apply pu_load_word|]; intros ? _). eapply pu_bind; [apply pu_perm|]; intros ? _.
  eapply pu_bind; [now apply pu_absorb_32|]; intros ? _. apply pu_bind_false. eapply pu_weaken; [now apply pu_absorb_32|].
  intros z H; cbn beta in H. specialize (H Hb H0). lia.
Qed.

(* ---------- isapk128v20 and isapk128av20: opt_64, avx512 ---------- *)

Record kops_pu (o : kops) (cf : cfg) : Prop := {
  kp_init : forall b L ws, pu b L (k_init o ws) any1;
  kp_perm : forall b L r s, pu b L (k_perm o r s) any1;
  kp_src : forall b L p, pu b L (k_load_src o cf p) (fun _ => pb p = b -> po p + 18 <= N.of_nat L) }.

Lemma k64_pu scr cf : kops_pu (k64_ops scr) cf.
Proof.
  split.
  - intros b L ws. now apply pu_ret.
  - intros b L r s m t H1 H2. cbn. unfold any1. auto.
  - intros b L p. cbn [k_load_src k64_ops]. unfold k64_load_src. eapply pu_bind; [apply pu_loadn|]. intros x [_ Hx].
    eapply pu_bind; [apply pu_loadn|]. intros y [_ Hy].
    eapply pu_bind with (R := fun _ => pb p = b -> po p + 18 <= N.of_nat L); [|intros; now apply pu_ret].
    unfold load_lo16. destruct (aligned cf (padd p 16) 8); [|apply pu_fail]. eapply pu_bind; [apply pu_emit|]. intros _ _ m t H1 H2. cbn [smem].
    destruct (inside m _); [|auto]. pose proof (@pu_loads_ b L 2 (padd p 16) m t H1 H2) as H. destruct (loads_ 2 (padd p 16) (St m t)); auto.
    destruct H as (E1 & E2 & _ & E3). split; auto. split; auto. intros Hb. cbn [padd pb po] in E3. specialize (E3 Hb ltac:(lia)). lia.
Qed.
Lemma kavx_pu junk perm cf : (forall b L r s, pu b L (perm r s) any1) -> kops_pu (kavx_ops junk perm) cf.
Proof.
  intros Hp. split.
  - intros b L ws m t H1 H2. cbn. unfold any1. auto.
  - exact Hp.
  - intros b L p. cbn [k_load_src kavx_ops]. unfold mask_load. eapply pu_bind; [apply pu_emit|]. intros _ _.
    eapply pu_weaken; [apply pu_loads_|]. intros l [_ H] Hb. specialize (H Hb ltac:(lia)). lia.
Qed.

Section K.
  Variables (o : kops) (R : krounds) (cf : cfg).
  Hypothesis Ho : kops_pu o cf.
  Lemma pu_permute b L r s : pu b L (permute o r s) any1.
  Proof. eapply pu_bind; [apply pu_emit|]. intros. apply (kp_perm o cf Ho). Qed.

  Lemma pu_absorb_k {b L} s src len : len < 2 ^ 64 -> pu b L (KIsap.ABSORB_MAC o R cf s src len) (reads_n b L src len).
  Proof.
    intros Hl. unfold KIsap.ABSORB_MAC.
    set (n := N.to_nat ((len - 1) / 18)).
    assert (Hn : N.of_nat n = (len - 1) / 18) by (unfold n; lia).
    pose proof (N.div_mod (len - 1) 18 ltac:(lia)) as Hd. pose proof (N.mod_lt (len - 1) 18 ltac:(lia)) as Hm.
    assert (Hq : (len - 1) / 18 <= len / 18) by (apply N.div_le_mono; lia).
    eapply pu_bind.
    - apply (pu_while0 (fun k (st : list N * N * N) => snd (fst st) = 18 * N.of_nat k /\ snd st = len - 18 * N.of_nat k /\ 18 * N.of_nat k <= len /\
                        (pb src = b -> 0 < N.of_nat k -> po src + 18 * N.of_nat k <= N.of_nat L)) _ _ n); [| |lia|].
      + intros k [[s' i] r] Hk (_ & E & _). cbn [snd] in *. subst r. destruct (N.ltb_spec 18 (len - 18 * N.of_nat k)); destruct (Nat.ltb_spec k n); lia.
      + intros k [[s' i] r] Hk (E1 & E2 & E3 & E4). cbn [fst snd] in *. subst i r. unfold KIsap.absorb_full.
        eapply pu_bind; [apply (kp_src o cf Ho)|]. intros v Hv. cbn [padd pb po] in Hv. eapply pu_bind; [apply pu_permute|]. intros s1 _. apply pu_ret.
        cbn [fst snd]. split; [|split; [|split]].
        * unfold u64. rewrite N.mod_small; lia.
        * rewrite sub64_small; lia.
        * lia.
        * intros Hb _. specialize (Hv Hb). lia.
      + cbn [fst snd]. split; [|split; [|split]]; lia.
    - intros [[s1 i] r] (E1 & E2 & E3 & E4). cbn [fst snd] in *. subst i. apply pu_if; intros Hr.
      + apply N.eqb_eq in Hr. eapply pu_bind; [apply (kp_src o cf Ho)|]. intros v Hv. cbn [padd pb po] in Hv.
        eapply pu_bind; [apply pu_permute|]. intros. eapply pu_weaken; [apply pu_permute|]. intros _ _ Hb _. specialize (Hv Hb). lia.
      + apply N.eqb_neq in Hr.
        eapply pu_bind with (R := fun _ => pb src = b -> 0 < r -> po src + len <= N.of_nat L).
        * eapply pu_weaken.
          -- apply (pu_for (fun k (x : list N * N) => snd x = 18 * N.of_nat n + N.min (N.of_nat k) r /\
               (pb src = b -> 0 < N.min (N.of_nat k) r -> po src + 18 * N.of_nat n + N.min (N.of_nat k) r <= N.of_nat L)) 18%nat); [reflexivity| |].
             ++ intros k [l i8] Hk [E E5]. cbn [snd] in *. subst i8. apply pu_if; intros Hlt.
                ** apply N.ltb_lt in Hlt. eapply pu_bind; [apply pu_load|]. intros v Hv. cbn [padd pb po] in Hv. apply pu_ret. cbn [snd].
                   replace (N.min (N.of_nat k) r) with (N.of_nat k) in * by lia. replace (N.min (N.of_nat (S k)) r) with (N.of_nat k + 1) by lia.
                   split; [unfold u64; rewrite N.mod_small; lia|]. intros Hb _. specialize (Hv Hb). lia.
                ** apply N.ltb_ge in Hlt. replace (N.min (N.of_nat (S k)) r) with (N.min (N.of_nat k) r) by lia.
                   apply pu_if; intros _; apply pu_ret; auto.
             ++ cbn [snd]. split; lia.
          -- intros [l i8] [_ H] Hb H0. cbn [snd] in H. specialize (H Hb ltac:(lia)). lia.
        * intros x Hx. eapply pu_weaken; [apply pu_permute|]. intros _ _ Hb H0. apply (Hx Hb). lia.
  Qed.

  Lemma k_reads : mac_reads 64 (KIsap.isap_mac o R cf).
  Proof.
    intros b L k npub ad adlen c n tag Hb Ha Hn H0 HL. rewrite N.mod_small in * by auto. unfold KIsap.isap_mac, iv1_pair.
    eapply pu_bind; [apply pu_load_lanes|]; intros ? _.
    do 4 (eapply pu_bind with (R := any1); [pu_go|]; intros ? _).
    eapply pu_bind; [apply (kp_init o cf Ho)|]; intros ? _. eapply pu_bind; [apply pu_permute|]; intros ? _.
    eapply pu_bind; [now apply pu_absorb_k|]; intros ? _. apply pu_bind_false. eapply pu_weaken; [now apply pu_absorb_k|].
    intros z H; cbn beta in H. specialize (H Hb H0). lia.
  Qed.
End K.

(* ---------- isapk128v20 and isapk128av20: opt_32_armv6m, opt_32_armv7m ---------- *)

Lemma pu_rep {b L} (I : nat -> Prop) (f : N -> M unit) n : forall i j,
  (forall k, (j <= k < j + n)%nat -> I k -> pu b L (f (i + N.of_nat (k - j))) (fun _ => I (S k))) ->
  I j -> pu b L (rep n i f) (fun _ => I (j + n)%nat).
Proof.
  induction n as [|n IH]; intros i j H HI; cbn [rep].
  - rewrite Nat.add_0_r. now apply pu_ret.
  - eapply pu_bind.
    + specialize (H j ltac:(lia) HI). rewrite Nat.sub_diag in H. change (N.of_nat 0) with 0 in H. rewrite N.add_0_r in H. exact H.
    + intros z HI'. cbn beta in HI'. replace (j + S n)%nat with (S j + n)%nat by lia. apply IH; auto.
      intros k Hk Hx. specialize (H k ltac:(lia) Hx). now replace (i + 1 + N.of_nat (k - S j)) with (i + N.of_nat (k - j)) by lia.
Qed.
Lemma pu_rep_any {b L} f n i : (forall j, pu b L (f j) any1) -> pu b L (rep n i f) any1.
Proof. intros H. eapply pu_weaken; [apply (pu_rep (fun _ => True) f n i 0); auto|]. unfold any1; auto. Qed.

Section Arm.
  Variables (A : armcode) (scr : st -> list N) (R : krounds) (cf : cfg).

  Lemma pu_arm_init {b L} state : pu b L (arm_Initialize cf state) any1.
  Proof. unfold arm_Initialize. eapply pu_bind; [apply pu_rep_any; intros; apply pu_storen|]. intros. apply pu_storen. Qed.
  Lemma pu_arm_add {b L} state data o n : pu b L (arm_AddBytes state data o n) any1.
  Proof. unfold arm_AddBytes. cbv zeta. pu_go. Qed.
  Lemma pu_arm_permute {b L} state nr : pu b L (arm_Permute A scr cf state nr) any1.
  Proof.
    unfold arm_Permute. destruct (aligned cf state 4); [|apply pu_fail]. eapply pu_bind; [apply pu_emit|]. intros _ _.
    eapply pu_bind; [apply pu_load_lanes|]. intros ws _ m t H1 H2. destruct (a_perm_lanes A (scr (St m t)) nr ws) as [ws'|]; [|auto].
    apply (@pu_store_lanes b L cf ws' state m t H1 H2).
  Qed.
  Lemma pu_xor_byte {b L} p v : pu b L (xor_byte p v) any1.
  Proof. unfold xor_byte. pu_go. Qed.

  Lemma pu_xor_half {b L} state src idx16 j : idx16 + j < 2 ^ 32 ->
    pu b L (xor_half cf state src idx16 j) (fun _ => pb src = b -> po src + 2 * (idx16 + j) + 2 <= N.of_nat L).
  Proof.
    intros H. unfold xor_half. eapply pu_bind; [apply pu_loadn|]. intros s _. eapply pu_bind; [apply pu_loadn|]. intros d [_ Hd].
    eapply pu_weaken; [apply pu_storen|]. intros _ _ Hb. cbn [padd pb po] in Hd. unfold u32 in Hd. rewrite N.mod_small in Hd by auto.
    specialize (Hd Hb ltac:(lia)). lia.
  Qed.

  Lemma pu_absorb_arm {b L} state src len : len < 2 ^ 32 -> pu b L (absorb A scr R cf state src len) (reads_n b L src len).
  Proof.
    intros Hl. unfold absorb.
    set (n := N.to_nat (len / 18)).
    assert (Hn : N.of_nat n = len / 18) by (unfold n; lia).
    pose proof (N.div_mod len 18 ltac:(lia)) as Hd. pose proof (N.mod_lt len 18 ltac:(lia)) as Hm.
    eapply pu_bind.
    - apply (pu_while0 (fun k (st : N * N) => fst st = 9 * N.of_nat k /\ snd st = len - 18 * N.of_nat k /\
                        (pb src = b -> 0 < N.of_nat k -> po src + 18 * N.of_nat k <= N.of_nat L)) _ _ n); [| |lia|].
      + intros k [i r] Hk (_ & E & _). cbn [snd] in *. subst r. destruct (N.leb_spec 18 (len - 18 * N.of_nat k)); destruct (Nat.ltb_spec k n); lia.
      + intros k [i r] Hk (E1 & E2 & E3). cbn [fst snd] in *. subst i r.
        eapply pu_bind.
        * apply (pu_rep (fun j => pb src = b -> (0 < j)%nat -> po src + 18 * N.of_nat k + 2 * N.of_nat j <= N.of_nat L) _ 9 0 0); [|lia].
          intros j Hj _. rewrite Nat.sub_0_r, N.add_0_l. eapply pu_weaken; [apply pu_xor_half; lia|]. intros z H Hb _. specialize (H Hb). lia.
        * intros z Hv. cbn beta in Hv. eapply pu_bind; [apply pu_arm_permute|]. intros _ _. apply pu_ret. cbn [fst snd]. split; [|split].
          -- unfold u32. rewrite N.mod_small; lia.
          -- unfold sub32. rewrite subw; lia.
          -- intros Hb _. specialize (Hv Hb ltac:(lia)). lia.
      + cbn [fst snd]. split; [|split]; lia.
    - intros [i r] (E1 & E2 & E3). cbn [fst snd] in *. subst i. cbv zeta.
      assert (Er : r = len mod 18) by lia. clear E2.
      replace (u32 (9 * N.of_nat n * 2)) with (18 * N.of_nat n) by (unfold u32; rewrite N.mod_small; lia).
      eapply pu_bind with (R := fun _ => pb src = b -> 0 < r -> po src + len <= N.of_nat L).
      + eapply pu_weaken.
        * apply (pu_for (fun k (_ : unit) => pb src = b -> 0 < N.of_nat k -> po src + 18 * N.of_nat n + N.of_nat k <= N.of_nat L) (N.to_nat r)); [lia| |lia].
          intros k [] Hk _. eapply pu_bind; [apply pu_load|]. intros v Hv. cbn [padd pb po] in Hv. unfold u32 in Hv. rewrite N.mod_small in Hv by lia.
          eapply pu_weaken; [apply pu_xor_byte|]. intros _ _ Hb _. specialize (Hv Hb). lia.
        * intros [] H Hb H0. specialize (H Hb ltac:(lia)). lia.
      + intros z H. cbn beta in H. eapply pu_bind; [apply pu_xor_byte|]. intros _ _. eapply pu_weaken; [apply pu_arm_permute|]. intros _ _ Hb H0.
        destruct (N.eq_dec r 0) as [Ez|Ez]; [|apply (H Hb); lia]. specialize (E3 Hb ltac:(lia)). lia.
  Qed.

  Lemma arm_reads : mac_reads 32 (KArm.isap_mac A scr R cf).
  Proof.
    intros b L k npub ad adlen c n tag Hb Ha Hn H0 HL. unfold KArm.isap_mac. apply pu_with_block. intros state.
    eapply pu_bind; [apply pu_arm_init|]; intros ? _. do 2 (eapply pu_bind; [apply pu_arm_add|]; intros ? _).
    eapply pu_bind; [apply pu_arm_permute|]; intros ? _.
    assert (G : forall x, u32 x < 2 ^ 32) by (intros; apply N.mod_lt; lia).
    eapply pu_bind; [apply pu_absorb_arm, G|]; intros ? _. eapply pu_bind; [apply pu_xor_byte|]; intros ? _.
    apply pu_bind_false. eapply pu_weaken; [apply pu_absorb_arm, G|].
    intros z H; cbn beta in H. unfold u32 in H. specialize (H Hb H0). lia.
  Qed.
End Arm.
