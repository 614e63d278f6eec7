(* isapa128av20/avx_512, encryption of texts that an unsigned long cannot index: the bytes behind position 2^UL are not written. Proofs only, apart
   from auxiliary notions. What is shown is that encryption terminates normally and which bytes it leaves alone; not what it writes. *)
From Verif Require Import Base Prog SpecPerm Words Mem Vocab Vocab2 VocabK MemProof RefLib Sponge RefProof RefAead SpecFacts.
From Verif Require Import Api ApiProof ExtProof ExLib OptPerm OptRep OptPermProof OptIsap OptLanes OptProof OptImpl OptEx.
From Verif Require Import A128Perm A128PermProof A128 A128Proof A128Impl AvxA AvxAProof AvxAEnc AvxAImpl LenWrap LenTail ApiProps.
From Verif Require Spec RefIsap ApiCode.
Open Scope N_scope.
Open Scope cm_scope.

(* ---------- normal termination ---------- *)

Definition tot {A} (f : M A) (m : mem) (Q : A -> mem -> Prop) : Prop := exists a m', runs f m a m' /\ Q a m'.

Lemma tot_ret {A} (a : A) m (Q : A -> mem -> Prop) : Q a m -> tot (ret a) m Q.
Proof. intros H. exists a, m. split; [apply runs_ret|exact H]. Qed.
Lemma tot_bind {A B} (f : M A) (g : A -> M B) m (Q : B -> mem -> Prop) : tot f m (fun a m1 => tot (g a) m1 Q) -> tot (bind f g) m Q.
Proof. intros (a & m1 & R & b & m2 & R2 & H). exists b, m2. split; [eapply runs_bind; eauto|exact H]. Qed.
Lemma tot_weaken {A} (f : M A) m (Q Q' : A -> mem -> Prop) : tot f m Q -> (forall a m', Q a m' -> Q' a m') -> tot f m Q'.
Proof. intros (a & m1 & R & H) HQ. exists a, m1. auto. Qed.
Lemma tot_if {A} (b : bool) (x y : M A) m Q : tot (if b then x else y) m Q -> tot (if_ b x y) m Q.
Proof. intros (a & m1 & R & H). exists a, m1. split; [now apply runs_if|exact H]. Qed.
Lemma tot_perm a r s m (Q : state -> mem -> Prop) : (forall s', Q s' m) -> tot (perm a r s) m Q.
Proof. intros H. eexists _, m. split; [eapply runs_bind; [apply runs_emit|apply runs_ret]|apply H]. Qed.
Lemma tot_vperm cs v m (Q : vec -> mem -> Prop) : (forall v', Q v' m) -> tot (vperm cs v) m Q.
Proof. intros H. eexists _, m. split; [eapply runs_bind; [apply runs_emit|apply runs_ret]|apply H]. Qed.
Lemma tot_load p m (Q : N -> mem -> Prop) : rd1 m p <> None -> (forall v, Q v m) -> tot (load p) m Q.
Proof. intros H HQ. destruct (rd1 m p) as [v|] eqn:E; [|congruence]. exists v, m. split; [now apply runs_load|apply HQ]. Qed.
Lemma tot_store p v m (Q : unit -> mem -> Prop) : inside m p = true -> Q tt (putp m p [v]) -> tot (store p v) m Q.
Proof. intros H HQ. exists tt. eexists. split; [now apply runs_store1|exact HQ]. Qed.

Lemma tot_for_nat {A} (I : nat -> A -> mem -> Prop) n body : forall i a m, I i a m ->
  (forall k a m, (i <= k < i + n)%nat -> I k a m -> tot (body (N.of_nat k) a) m (I (S k))) -> tot (for_nat n (N.of_nat i) body a) m (I (i + n)%nat).
Proof.
  induction n as [|n IH]; intros i a m H0 H; cbn [for_nat].
  - apply tot_bind. exists false, m. split; [apply runs_branch|]. apply tot_ret. now rewrite Nat.add_0_r.
  - apply tot_bind. exists true, m. split; [apply runs_branch|]. apply tot_bind.
    eapply tot_weaken; [apply (H i); auto; lia|]. cbv beta. intros a' m' H'.
    replace (N.of_nat i + 1) with (N.of_nat (S i)) by lia. replace (i + S n)%nat with (S i + n)%nat by lia. apply IH; auto.
    intros k x y Hk. apply H. lia.
Qed.
Lemma tot_for {A} (I : nat -> A -> mem -> Prop) n body a m (Q : A -> mem -> Prop) : I 0%nat a m ->
  (forall k a m, (k < N.to_nat n)%nat -> I k a m -> tot (body (N.of_nat k) a) m (I (S k))) ->
  (forall a m, I (N.to_nat n) a m -> Q a m) -> tot (for_ 0 n body a) m Q.
Proof.
  intros H0 H HQ. unfold for_. rewrite N.sub_0_r. eapply tot_weaken; [apply (tot_for_nat I (N.to_nat n) body 0)|]; auto.
  intros k x y Hk. apply H. lia.
Qed.
Lemma tot_while {A} (I : nat -> A -> mem -> Prop) (n fuel : nat) cond body a m (Q : A -> mem -> Prop) : I 0%nat a m -> (n < fuel)%nat ->
  (forall k a m, I k a m -> (k <= n)%nat) ->
  (forall k a m, I k a m -> cond a = true -> tot (body a) m (I (S k))) -> (forall k a m, I k a m -> cond a = false -> Q a m) ->
  tot (while_ fuel cond body a) m Q.
Proof.
  intros H0 Hf Hn HS HQ.
  assert (G : forall fuel k a m, I k a m -> (n < k + fuel)%nat -> tot (while_ fuel cond body a) m Q).
  { clear a m H0 fuel Hf. induction fuel as [|f IH]; intros k a m Ik Hf; [specialize (Hn _ _ _ Ik); lia|].
    cbn [while_]. apply tot_bind. exists (cond a), m. split; [apply runs_branch|]. destruct (cond a) eqn:E.
    - apply tot_bind. eapply tot_weaken; [now apply (HS k)|]. cbv beta. intros a' m' I'. apply (IH (S k)); auto. lia.
    - apply tot_ret. eauto. }
  apply (G fuel 0%nat); auto.
Qed.

(* ---------- what may change ---------- *)

(* Only bytes in W may differ; objects keep their sizes; initialised bytes stay initialised. *)
Record chg (W : ptr -> Prop) (m m' : mem) : Prop := Chg {
  chg_len : length m' = length m;
  chg_in : forall p, inside m' p = inside m p;
  chg_eq : forall p, ~ W p -> cellp m' p = cellp m p;
  chg_rd : forall p, rd1 m p <> None -> rd1 m' p <> None }.
Lemma chg_refl W m : chg W m m. Proof. split; auto. Qed.
Lemma chg_trans W m m1 m2 : chg W m m1 -> chg W m1 m2 -> chg W m m2.
Proof. intros [A1 A2 A3 A4] [B1 B2 B3 B4]. split; auto; intros; [congruence|rewrite B2; auto|rewrite B3; auto]. Qed.
Lemma chg_sub (W W' : ptr -> Prop) m m' : chg W m m' -> (forall p, W p -> W' p) -> chg W' m m'.
Proof. intros [A1 A2 A3 A4] H. split; auto. Qed.
Lemma chg_putp (W : ptr -> Prop) m p bs : room m p (length bs) -> (forall q, within p (length bs) q = true -> W q) -> chg W m (putp m p bs).
Proof.
  intros R H. split.
  - apply putp_length.
  - intros q. now apply inside_putp.
  - intros q Hq. apply cellp_putp_out; auto. destruct (within p (length bs) q) eqn:E; auto. elim Hq. auto.
  - intros q Hq. rewrite rd1_putp by auto. destruct (within p (length bs) q); auto. discriminate.
Qed.

Definition rdN (m : mem) (p : ptr) (n : N) : Prop := forall i, i < n -> rd1 m (padd p i) <> None.
Definition inN (m : mem) (p : ptr) (n : N) : Prop := forall i, i < n -> inside m (padd p i) = true.
Lemma rdN_chg W m m' p n : chg W m m' -> rdN m p n -> rdN m' p n.
Proof. intros C H i Hi. apply (chg_rd _ _ _ C). now apply H. Qed.
Lemma inN_chg W m m' p n : chg W m m' -> inN m p n -> inN m' p n.
Proof. intros C H i Hi. rewrite (chg_in _ _ _ C). now apply H. Qed.
Lemma inN_room m p n : room m p n <-> inN m p (N.of_nat n).
Proof.
  split; intros H i Hi; [|apply H; lia]. specialize (H (N.to_nat i)). rewrite N2Nat.id in H. apply H. lia.
Qed.
Lemma rdN_has m p bs : has m p bs -> rdN m p (N.of_nat (length bs)).
Proof. intros H i Hi. specialize (H (N.to_nat i)). rewrite N2Nat.id in H. rewrite H by lia. discriminate. Qed.
Lemma rdN_le m p n k : rdN m p n -> k <= n -> rdN m p k. Proof. intros H Hk i Hi. apply H. lia. Qed.
Lemma inN_le m p n k : inN m p n -> k <= n -> inN m p k. Proof. intros H Hk i Hi. apply H. lia. Qed.
Lemma rdN_at m p n o k : rdN m p n -> o + k <= n -> rdN m (padd p o) k.
Proof. intros H Hk i Hi. rewrite padd_padd. apply H. lia. Qed.
Lemma inN_at m p n o k : inN m p n -> o + k <= n -> inN m (padd p o) k.
Proof. intros H Hk i Hi. rewrite padd_padd. apply H. lia. Qed.
Lemma rdN_putp m p bs : room m p (length bs) -> rdN (putp m p bs) p (N.of_nat (length bs)).
Proof. intros R. now apply rdN_has, has_putp_same. Qed.
Lemma has_rdN m p n : rdN m p (N.of_nat n) -> exists bs, length bs = n /\ has m p bs.
Proof.
  induction n as [|n IH]; intros H.
  - exists []. split; auto. intros i Hi. cbn [length] in Hi. lia.
  - destruct IH as (X & LX & HX); [intros i Hi; apply H; lia|]. pose proof (H (N.of_nat n) ltac:(lia)) as Hn.
    destruct (rd1 m (padd p (N.of_nat n))) as [b|] eqn:E; [|congruence]. exists (X ++ [b]). rewrite app_length. cbn [length]. split; [lia|].
    intros i Hi. rewrite app_length in Hi. cbn [length] in Hi. destruct (Nat.ltb_spec i n).
    + rewrite app_nth1 by lia. apply HX. lia.
    + assert (i = n) as -> by lia. rewrite app_nth2 by lia. now rewrite LX, Nat.sub_diag.
Qed.

Lemma tot_with_block {A} (W : ptr -> Prop) n (f : ptr -> M A) m :
  tot (f (P (length m) 0)) (m ++ [uninit n]) (fun _ m' => chg (fun p => W p \/ (length m <= pb p)%nat) (m ++ [uninit n]) m') ->
  tot (with_block n f) m (fun _ m' => chg W m m').
Proof.
  intros (a & m' & R & C). pose proof (chg_len _ _ _ C) as L. rewrite app_length in L. cbn [length] in L.
  destruct (@exists_last _ m') as (m1 & b & E); [intros ->; cbn [length] in L; lia|]. subst m'.
  rewrite app_length in L. cbn [length] in L. assert (L1 : length m1 = length m) by lia.
  exists a, m1. split; [eapply runs_with_block; exact R|].
  assert (B : forall p, (pb p < length m)%nat -> cellp (m1 ++ [b]) p = cellp m1 p /\ cellp (m ++ [uninit n]) p = cellp m p).
  { intros p Hp. split; apply cellp_app; lia. }
  assert (H : forall (x : mem) p, (length m <= pb p)%nat -> length x = length m -> cellp x p = None).
  { intros x p Hp Lx. unfold cellp, blk. rewrite (nth_overflow x) by lia. now destruct (N.to_nat (po p)). }
  split; auto.
  - intros p. pose proof (chg_in _ _ _ C p) as I. destruct (Nat.ltb_spec (pb p) (length m)).
    + unfold inside in *. rewrite !blk_app1 in I by lia. exact I.
    + unfold inside, blk. rewrite !nth_overflow by lia. reflexivity.
  - intros p Hp. destruct (Nat.ltb_spec (pb p) (length m)) as [Hl|Hl].
    + destruct (B p Hl) as [<- <-]. apply (chg_eq _ _ _ C). intros [|]; [auto|lia].
    + now rewrite !H by auto.
  - intros p. rewrite !rd1_cell. destruct (Nat.ltb_spec (pb p) (length m)) as [Hl|Hl].
    + destruct (B p Hl) as [<- <-]. rewrite <- !rd1_cell. apply (chg_rd _ _ _ C).
    + now rewrite !H by auto.
Qed.

Definition reg (c : ptr) (n : N) : ptr -> Prop := fun p => pb p = pb c /\ po c <= po p < po c + n.
Lemma within_reg p n q : within p n q = true -> reg p (N.of_nat n) q.
Proof. unfold within, reg. intros H. apply andb_true_iff in H as [H H3]. apply andb_true_iff in H as [H1 H2]. lia. Qed.
Lemma reg_sub c n o k q : reg (padd c o) k q -> o + k <= n -> reg c n q.
Proof. unfold reg, padd. cbn [pb po]. intros. lia. Qed.

Section LenAvx.
  Variables (UL : N) (cf : cfg).
  Hypothesis Hs : strict cf = false.

  Lemma lax_aligned p n : aligned cf p n = true. Proof. unfold aligned. now rewrite Hs. Qed.
  Lemma tot_load_ull p m (Q : N -> mem -> Prop) : rdN m p 8 -> (forall v, Q v m) -> tot (RefIsap.load_ull cf p) m Q.
  Proof.
    intros H HQ. destruct (has_rdN m p 8 H) as (bs & L & Hb). unfold RefIsap.load_ull. apply tot_bind. exists bs, m. split.
    - rewrite <- L. apply runs_loadn; auto using lax_aligned.
    - now apply tot_ret.
  Qed.
  Lemma tot_load_word a p m (Q : N -> mem -> Prop) : rdN m p 8 -> (forall v, Q v m) -> tot (load_word a cf p) m Q.
  Proof. intros H HQ. apply tot_bind, tot_load_ull; auto. intros v. now apply tot_ret. Qed.
  Lemma tot_store_ull p v m (Q : unit -> mem -> Prop) : inN m p 8 -> (forall m', chg (reg p 8) m m' -> rdN m' p 8 -> Q tt m') ->
    tot (RefIsap.store_ull cf p v) m Q.
  Proof.
    intros H HQ. assert (R : room m p 8) by (apply inN_room; exact H).
    exists tt. eexists. split; [apply runs_store_ull; auto using lax_aligned|]. apply HQ.
    - apply chg_putp; rewrite word_le_length; auto. intros q. exact (within_reg p 8 q).
    - pose proof (rdN_putp m p (word_le 8 v)) as H'. rewrite word_le_length in H'. exact (H' R).
  Qed.
  Ltac tb := apply tot_bind.
  Ltac lw := tb; apply tot_load_word; [|let w := fresh "w" in intros w].

  Lemma tot_rk m k iv y out outlen n (Q : unit -> mem -> Prop) : rdN m k 16 -> rdN m iv 8 -> rdN m y 16 ->
    n = (if outlen =? 24 then 24 else 16) -> inN m out n ->
    (forall m', chg (reg out n) m m' -> rdN m' out n -> Q tt m') -> tot (isap_rkA cf k iv y 16 out outlen) m Q.
  Proof.
    intros Hk Hi Hy En Ho HQ. unfold isap_rkA.
    lw; [apply (rdN_at m k 16); auto; lia|]. lw; [apply (rdN_at m k 16); auto; lia|]. lw; [apply (rdN_at m iv 8); auto; lia|].
    tb. apply tot_perm. intros s. tb.
    apply (tot_for (fun _ _ m' => m' = m)); auto.
    { change (N.to_nat (sub64 (u64 (16 * 8)) 1)) with 127%nat. intros i a m' H127 ->. tb. apply tot_load.
      - apply Hy. lia.
      - intros v. apply tot_perm. auto. }
    intros s1 m' ->. tb. apply tot_load; [apply Hy; reflexivity|]. intros v. tb. apply tot_perm. intros s2.
    assert (N16 : 16 <= n) by (rewrite En; destruct (outlen =? 24); lia).
    tb. apply tot_store_ull; [apply (inN_at m out n); auto; lia|]. intros m1 C1 R1.
    tb. apply tot_store_ull; [apply (inN_at m1 out n); [eapply inN_chg; eauto|lia]|]. intros m2 C2 R2.
    assert (C : chg (reg out n) m m2).
    { eapply chg_trans; eapply chg_sub; eauto; intros p Hp; eapply reg_sub; eauto; lia. }
    assert (R : rdN m2 out 16).
    { intros i Hi16. destruct (N.ltb_spec i 8).
      - specialize (rdN_chg _ _ _ _ _ C2 R1 i ltac:(lia)). now rewrite padd_0.
      - specialize (R2 (i - 8) ltac:(lia)). rewrite padd_padd in R2. now replace (8 + (i - 8)) with i in R2 by lia. }
    apply tot_if. destruct (outlen =? 24) eqn:E.
    - apply tot_store_ull; [apply (inN_at m2 out n); [eapply inN_chg; eauto|lia]|]. intros m3 C3 R3. apply HQ.
      + eapply chg_trans; [exact C|]. eapply chg_sub; [exact C3|]. intros p Hp. eapply reg_sub; eauto. lia.
      + rewrite En. intros i Hi24. destruct (N.ltb_spec i 16); [exact (rdN_chg _ _ _ _ _ C3 R i ltac:(lia))|].
        specialize (R3 (i - 16) ltac:(lia)). rewrite padd_padd in R3. now replace (16 + (i - 16)) with i in R3 by lia.
    - apply tot_ret. apply HQ; auto. now rewrite En.
  Qed.

  (* Five words stored one after the other. *)
  Lemma tot_finish m k s state tag (Q : unit -> mem -> Prop) : rdN m k 16 -> rdN m RefIsap.ISAP_IV_KA 8 -> inN m state 40 -> inN m tag 16 ->
    (forall m', chg (fun p => reg state 40 p \/ reg tag 16 p) m m' -> Q tt m') -> tot (finishA cf k s state tag) m Q.
  Proof.
    intros Hk Hi Hst Ht HQ. unfold finishA. set (W := fun p => reg state 40 p \/ reg tag 16 p) in *.
    assert (St : forall m0 o v (R : unit -> mem -> Prop), chg W m m0 -> o + 8 <= 40 -> rdN m0 state o ->
      (forall m', chg W m m' -> rdN m' state (o + 8) -> R tt m') -> tot (RefIsap.store_ull cf (padd state o) v) m0 R).
    { intros m0 o v R C Ho R0 HR. apply tot_store_ull; [apply (inN_at m0 state 40); auto; eapply inN_chg; eauto|]. intros m' C' R'. apply HR.
      - eapply chg_trans; [exact C|]. eapply chg_sub; [exact C'|]. intros p Hp. left. eapply reg_sub; eauto.
      - intros i Hio. destruct (N.ltb_spec i o); [exact (rdN_chg _ _ _ _ _ C' R0 i ltac:(lia))|].
        specialize (R' (i - o) ltac:(lia)). rewrite padd_padd in R'. now replace (o + (i - o)) with i in R' by lia. }
    tb. apply (St m 0); [apply chg_refl|lia|intros i Hi0; lia|]. intros m1 C1 R1.
    tb. apply (St m1 8); [exact C1|lia|exact R1|]. intros m2 C2 R2.
    tb. apply (St m2 16); [exact C2|lia|exact R2|]. intros m3 C3 R3.
    tb. apply (St m3 24); [exact C3|lia|exact R3|]. intros m4 C4 R4.
    tb. apply (St m4 32); [exact C4|lia|exact R4|]. intros m5 C5 R5. change (32 + 8) with 40 in R5.
    tb. apply (tot_rk m5 k _ state state _ 16).
    { eapply rdN_chg; eauto. } { eapply rdN_chg; eauto. } { eapply rdN_le; eauto. lia. } { reflexivity. }
    { eapply inN_chg; eauto. eapply inN_le; eauto. lia. }
    intros m6 C6 _.
    assert (R6 : rdN m6 state 40) by (eapply rdN_chg; eauto).
    assert (C : chg W m m6).
    { eapply chg_trans; [exact C5|]. eapply chg_sub; [exact C6|]. intros p Hp. left. unfold reg in *. lia. }
    do 5 (lw; [eapply rdN_at; [exact R6|lia]|]). tb. apply tot_perm. intros s'.
    tb. apply tot_store_ull; [eapply inN_at; [eapply inN_chg; eauto|lia]|]. intros m7 C7 _.
    apply tot_store_ull; [eapply inN_at; [eapply inN_chg; [exact C7|eapply inN_chg; eauto]|lia]|]. intros m8 C8 _. apply HQ.
    eapply chg_trans; [exact C|]. eapply chg_trans; eapply chg_sub; eauto; intros p Hp; right; eapply reg_sub; eauto; lia.
  Qed.

  Lemma tot_absorb m s src len (Q : state -> mem -> Prop) : rdN m src (ulA UL len) -> (forall s', Q s' m) -> tot (ABSORB_LANESA UL cf s src len) m Q.
  Proof.
    intros Hr HQ. unfold ABSORB_LANESA. set (n := ulA UL len) in *.
    assert (P0 : 2 ^ UL <> 0) by (apply N.pow_nonzero; lia). assert (Hn : n < 2 ^ UL) by (apply N.mod_lt; auto). tb.
    apply (tot_while (fun k (st : state * N * N) m' => m' = m /\ snd (fst st) = N.of_nat k /\ snd st + 8 * N.of_nat k = n) (N.to_nat (n / 8))).
    - cbn [fst snd]. repeat split; auto. lia.
    - lia.
    - intros k [[s0 i0] r0] m' (-> & E1 & E2). cbn [fst snd] in *. lia.
    - intros k [[s0 i0] r0] m' (-> & E1 & E2). cbn [fst snd] in *. subst i0. intros Hc. apply N.ltb_lt in Hc. unfold absorb_fullA.
      lw; [apply (rdN_at m src n); auto; lia|]. tb. apply tot_perm. intros s1. apply tot_ret. cbn [fst snd]. split; [reflexivity|].
      rewrite ulA_small, sublA_small by lia. lia.
    - intros k [[s0 i0] r0] m' (-> & E1 & E2). cbn [fst snd] in *. subst i0. intros Hc. apply N.ltb_ge in Hc. cbv beta iota. apply tot_if.
      destruct (N.eqb_spec r0 8) as [E|E].
      + lw; [apply (rdN_at m src n); auto; lia|]. tb. apply tot_perm. intros s1. now apply tot_ret.
      + tb. apply (tot_for (fun i (r : list N * N) m' => m' = m /\ snd r = 8 * N.of_nat k + N.min (N.of_nat i) r0)).
        * cbn [snd]. split; auto. rewrite ulA_small; lia.
        * intros i [l8 i8] m' Hi (-> & Ei). cbn [snd] in *. subst i8. apply tot_if. destruct (N.ltb_spec (N.of_nat i) r0).
          -- tb. apply tot_load; [apply Hr; lia|]. intros v. apply tot_ret. cbn [snd]. split; auto. rewrite ulA_small; lia.
          -- apply tot_if. destruct (N.of_nat i =? r0); apply tot_ret; cbn [snd]; split; auto; lia.
        * intros [l8 i8] m' (-> & _). now apply tot_ret.
  Qed.
  Lemma tot_text_word m mp o n (Q : N -> mem -> Prop) : rdN m (padd mp o) n -> o + n < 2 ^ 64 -> (forall v, Q v m) -> tot (text_word mp o n) m Q.
  Proof.
    intros H Ho HQ. unfold text_word. apply (tot_for (fun _ _ m' => m' = m)); auto.
    - intros i v m' Hi ->. tb. apply tot_load.
      + rewrite (sub64_small n (N.of_nat i)), sub64_small, u64_small by lia. rewrite <- padd_padd. apply H. lia.
      + intros v'. now apply tot_ret.
    - intros v m' ->. auto.
  Qed.

  Hypothesis HU : 4 <= UL <= 63.
  Variable c : ptr.
  Let U := 2 ^ UL.
  Let W := reg c U.
  Fact U16 : exists u, U = 16 * u /\ u <> 0.
  Proof.
    exists (2 ^ (UL - 4)). split; [|now apply N.pow_nonzero]. unfold U. change 16 with (2 ^ 4). rewrite <- N.pow_add_r. f_equal. lia.
  Qed.

  (* Writing at wrapped positions; r is readable before. *)
  Lemma tot_put_text m v n o (Q : N -> mem -> Prop) : inN m c U -> o + n <= U -> o < U ->
    (forall m', chg W m m' -> rdN m' (padd c o) n -> Q (ulA UL (o + n)) m') -> tot (put_text UL c v n o) m Q.
  Proof.
    intros Hc Ho Ho1 HQ. unfold put_text.
    apply (tot_for (fun i a m' => chg W m m' /\ rdN m' (padd c o) (N.of_nat i) /\ a = (o + N.of_nat i) mod U)).
    - split; [apply chg_refl|]. split; [intros i Hi; lia|]. rewrite N.add_0_r. symmetry. now apply N.mod_small.
    - intros i a m' Hi (C & R & ->). rewrite N.mod_small by lia. tb.
      assert (I : inside m' (padd c (o + N.of_nat i)) = true) by (apply (inN_chg _ _ _ _ _ C Hc); lia).
      apply tot_store; auto. apply tot_ret.
      assert (C' : chg W m' (putp m' (padd c (o + N.of_nat i)) [byte_at v (N.to_nat (N.of_nat i))])).
      { apply chg_putp; cbn [length].
        - intros j Hj. replace j with 0%nat by lia. now rewrite padd_0.
        - intros q Hq. apply within_reg in Hq. eapply reg_sub; eauto. lia. }
      split; [eapply chg_trans; eauto|]. split.
      + intros j Hj. destruct (N.ltb_spec j (N.of_nat i)); [now apply (rdN_chg _ _ _ _ _ C' R)|].
        replace j with (N.of_nat i) by lia. rewrite padd_padd. intros E.
        pose proof (rdN_putp m' (padd c (o + N.of_nat i)) [byte_at v (N.to_nat (N.of_nat i))]) as RR.
        specialize (RR ltac:(intros k Hk; cbn [length] in Hk; replace k with 0%nat by lia; now rewrite padd_0) 0 ltac:(cbn [length]; lia)).
        rewrite padd_0 in RR. contradiction.
      + unfold ulA. fold U. f_equal. lia.
    - rewrite N2Nat.id. intros a m' (C & R & ->). now apply HQ.
  Qed.

  Lemma lt_ll_N i rem : i < 8 -> rem < 2 ^ 63 -> lt_ll UL i (Z.of_N rem) = (i <? rem).
  Proof. intros Hi Hr. unfold lt_ll. replace (UL <? 64) with true by lia. lia. Qed.

  (* Reading at wrapped positions. *)
  Lemma tot_mac_lane m rem o R (Q : list N * N -> mem -> Prop) : rdN m c R -> R <= U -> o + 8 <= R -> rem < 2 ^ 63 ->
    (forall l, Q (l, ulA UL (o + N.min 8 rem)) m) -> tot (mac_lane UL c (Z.of_N rem) o) m Q.
  Proof.
    intros Hr HR Ho Hm HQ. unfold mac_lane.
    apply (tot_for (fun i (r : list N * N) m' => m' = m /\ snd r = (o + N.min (N.of_nat i) rem) mod U)).
    - cbn [snd]. split; auto. rewrite N.mod_small; lia.
    - intros i [l8 i8] m' Hi (-> & E). cbn [snd] in *. rewrite lt_ll_N by lia. apply tot_if. destruct (N.ltb_spec (N.of_nat i) rem).
      + tb. apply tot_load; [apply Hr; subst i8; rewrite N.mod_small; lia|]. intros v. apply tot_ret. cbn [snd]. split; auto. subst i8.
        unfold ulA. fold U. rewrite (N.mod_small (o + _) U) by lia. f_equal. lia.
      + apply tot_if. destruct (eq_ll UL (N.of_nat i) (Z.of_N rem)); apply tot_ret; cbn [snd]; split; auto; subst i8; f_equal; lia.
    - intros [l8 i8] m' (-> & E). cbn [snd] in E. subst i8. change (N.of_nat (N.to_nat 8)) with 8. apply HQ.
  Qed.

  Lemma zu64_N r : r < 2 ^ 64 -> zu64 (Z.of_N r) = r.
  Proof. intros H. unfold zu64. rewrite Z.mod_small by lia. lia. Qed.
  Lemma tot_if_ret {A} (b : bool) (x y : A) m (Q : A -> mem -> Prop) : Q (if b then x else y) m -> tot (if_ b (ret x) (ret y)) m Q.
  Proof. intros H. apply tot_if. destruct b; now apply tot_ret. Qed.
  Lemma tot_ssub z k m (Q : Z -> mem -> Prop) : (- 2 ^ 63 <= z - k)%Z -> Q (z - k)%Z m -> tot (ssub z k) m Q.
  Proof. intros H HQ. unfold ssub. replace (z - k <? - 2 ^ 63)%Z with false by lia. now apply tot_ret. Qed.

  Variables (mp : ptr) (len : N).
  Hypothesis Hlen : U <= len. Hypothesis Hlen63 : len < 2 ^ 63.

  (* After j rounds of the loop. *)
  Definition linv (M0 : mem) (j : N) (l : lst) (m : mem) : Prop :=
    chg W M0 m /\ rdN m c (N.min (16 * j) U) /\ l_enc l = (Z.of_N len - 16 * Z.of_N j)%Z /\
    (16 * j < len -> l_ienc l = ulA UL (16 * j)) /\ l_mac l = (Z.of_N len - 8 * Z.of_N (j - 1))%Z /\ l_imac l = ulA UL (8 * (j - 1)).

  Lemma ulA_add x y : ulA UL (ulA UL x + y) = ulA UL (x + y).
  Proof. unfold ulA. apply N.add_mod_idemp_l. now apply N.pow_nonzero. Qed.
  Lemma ulA_lt x : ulA UL x < U.
  Proof. apply N.mod_lt. now apply N.pow_nonzero. Qed.
  Lemma mod_mult k x : k <> 0 -> (exists u, U = k * u /\ u <> 0) -> ulA UL (k * x) + k <= U /\ ulA UL (k * x) <= k * x.
  Proof.
    intros Hk (u & E & Hu). unfold ulA. fold U. rewrite E. rewrite N.mul_mod_distr_l by auto. pose proof (N.mod_lt x u Hu). pose proof (N.mod_le x u Hu).
    split; [|now apply N.mul_le_mono_l]. replace (k * (x mod u) + k) with (k * (x mod u + 1)) by lia. apply N.mul_le_mono_l. lia.
  Qed.
  Fact U8 : exists u, U = 8 * u /\ u <> 0. Proof. destruct U16 as (u & E & Hu). exists (2 * u). lia. Qed.

  Lemma tot_body M0 j l m : inN M0 c U -> rdN M0 mp len -> 16 * j < len -> linv M0 j l m ->
    tot (mac_enc_body UL c mp len l) m (linv M0 (j + 1)).
  Proof.
    intros Ic Rm Hj (C & Rc & E1 & E2 & E3 & E4). specialize (E2 Hj). unfold mac_enc_body.
    set (r := len - 16 * j). assert (Er : l_enc l = Z.of_N r) by lia. assert (Dr : r + 16 * j = len) by (unfold r; lia). rewrite Er. clearbody r.
    destruct (mod_mult 16 j ltac:(lia) U16) as [J1 J2]. destruct (mod_mult 8 (j - 1) ltac:(lia) U8) as [J3 J4].
    rewrite zu64_N by lia.
    tb. apply tot_if_ret. set (e1 := if (8 <=? Z.of_N r)%Z then 8 else r).
    assert (Ee1 : e1 = N.min 8 r) by (unfold e1; destruct (Z.leb_spec 8 (Z.of_N r)); lia). clearbody e1.
    assert (Es : sub64 r e1 = r - e1) by (apply sub64_small; lia). rewrite Es.
    tb. apply tot_if. apply (tot_weaken _ _ (fun e m' => m' = m /\ e = N.min 8 (r - e1))).
    { destruct (N.leb_spec 8 (r - e1)); [apply tot_ret; split; auto; lia|]. apply tot_if_ret. split; auto.
      destruct (N.ltb_spec e1 8); lia. }
    intros e2 m' [-> Ee2].
    assert (Hi : l_ienc l + e1 + e2 <= U /\ l_ienc l + e1 + e2 <= len) by lia.
    assert (Rm' : rdN m mp len) by (eapply rdN_chg; eauto).
    tb. apply tot_text_word; [eapply rdN_at; [exact Rm'|lia]|lia|]. intros t1.
    tb. rewrite u64_small by lia. apply tot_text_word; [eapply rdN_at; [exact Rm'|lia]|lia|]. intros t2.
    tb. apply (tot_weaken _ _ (fun (x : N * Z * N) m' => m' = m /\ snd (fst x) = (Z.of_N len - 8 * Z.of_N j)%Z /\ snd x = ulA UL (8 * j))).
    { apply tot_if. destruct (N.ltb_spec r len) as [Hr|Hr].
      - tb. assert (Em : l_mac l = Z.of_N (len - 8 * (j - 1))) by lia. rewrite Em.
        apply (tot_mac_lane m _ _ (N.min (16 * j) U)); auto; try lia.
        intros ln. tb. apply tot_ssub; [lia|]. apply tot_ret. cbn [fst snd]. split; auto. split; [lia|].
        rewrite E4. replace (N.min 8 (len - 8 * (j - 1))) with 8 by lia. rewrite ulA_add. f_equal.
        assert (1 <= j) by lia. clear - H. lia.
      - apply tot_ret. cbn [fst snd]. assert (j = 0) as -> by lia. split; [reflexivity|]. split; [lia|exact E4]. }
    intros [[x1 x2] x3] m' (-> & X2 & X3). cbn [fst snd] in X2, X3. subst x2 x3. cbv beta iota.
    tb. apply tot_vperm. intros v1. tb. apply tot_vperm. intros v2.
    assert (Ic1 : inN m c U) by (eapply inN_chg; eauto).
    assert (HU0 : U <> 0) by now apply N.pow_nonzero.
    assert (Hi1 : l_ienc l < U) by (rewrite E2; apply ulA_lt).
    tb. apply tot_put_text; auto; [lia|]. intros m1 C1 R1.
    tb. destruct (N.eq_dec e2 0) as [Z2|Z2].
    { (* the last round, nothing in the second lane *)
      rewrite Z2. unfold put_text at 1. apply (tot_for (fun _ _ m' => m' = m1)); auto. { intros k0 a0 m0 Hk0. lia. }
      intros a m' ->. tb. apply tot_ssub; [lia|]. apply tot_ret. unfold linv. cbn [l_enc l_mac l_ienc l_imac]. split; [eapply chg_trans; eauto|].
      split. { intros i Hi'. apply (rdN_chg _ _ _ _ _ C1 Rc). destruct U16 as (u & Eu & _). lia. }
      split; [lia|]. split; [lia|]. split; [|f_equal; lia]. lia. }
    assert (e1 = 8) by lia.
    assert (HU16 : exists u, U = 16 * u) by (destruct U16 as (u & ? & _); now exists u).
    assert (Hm8 : ulA UL (l_ienc l + e1) = l_ienc l + e1) by (apply ulA_small; fold U; lia). rewrite Hm8.
    apply tot_put_text; [eapply inN_chg; eauto|lia|lia|]. intros m2 C2 R2.
    tb. apply tot_ssub; [lia|]. apply tot_ret. unfold linv. cbn [l_enc l_mac l_ienc l_imac].
    split; [eapply chg_trans; [exact C|]; eapply chg_trans; eauto|]. split.
    { intros i Hi'. destruct (N.ltb_spec i (N.min (16 * j) U)) as [L|L].
      - exact (rdN_chg _ _ _ _ _ C2 (rdN_chg _ _ _ _ _ C1 Rc) i L).
      - assert (16 * j < U) by lia. destruct HU16 as (u & Eu). assert (Ei : l_ienc l = 16 * j) by (rewrite E2; apply ulA_small; fold U; lia).
        destruct (N.ltb_spec i (16 * j + 8)).
        + assert (R1' : rdN m2 (padd c (l_ienc l)) e1) by (eapply rdN_chg; eauto).
          specialize (R1' (i - 16 * j) ltac:(lia)). rewrite padd_padd in R1'. now replace (l_ienc l + (i - 16 * j)) with i in R1' by lia.
        + specialize (R2 (i - 16 * j - 8) ltac:(lia)). rewrite padd_padd in R2.
          now replace (l_ienc l + e1 + (i - 16 * j - 8)) with i in R2 by lia. }
    split; [lia|]. split; [|split; [lia|f_equal; lia]].
    intros Hn. assert (e2 = 8) by lia. rewrite E2. replace (ulA UL (16 * j) + e1 + e2) with (ulA UL (16 * j) + 16) by lia. rewrite ulA_add. f_equal. clear. lia.
  Qed.
  (* Both loops. *)
  Lemma tot_loops M0 l m (Q : state * Z * N -> mem -> Prop) : inN M0 c U -> rdN M0 mp len -> linv M0 0 l m ->
    (forall st m', chg W M0 m' -> Q st m') ->
    tot (l <- mac_enc_body UL c mp len l ;;
         l <- while_ (S (N.to_nat (len / 16))) (fun l => 0 <? l_enc l)%Z (mac_enc_body UL c mp len) l ;;
         while_ (S (S (N.to_nat (len / 8)))) (fun st => 0 <=? snd (fst st))%Z (mac_rest UL c) (snd (l_v l), l_mac l, l_imac l)) m Q.
  Proof.
    intros Ic Rm I0 HQ. assert (HU0 : U <> 0) by now apply N.pow_nonzero.
    tb. eapply tot_weaken; [apply (tot_body M0 0); auto; lia|]. intros l1 m1 I1. cbv beta in I1. change (0 + 1) with 1 in I1.
    tb. apply (tot_while (fun k l m => linv M0 (1 + N.of_nat k) l m /\ 16 * N.of_nat k < len) (N.to_nat (len / 16))).
    { split; auto. lia. }
    { lia. }
    { intros k l2 m2 [_ Hk]. lia. }
    { intros k l2 m2 [I2 Hk] Hc. assert (Hj : 16 * (1 + N.of_nat k) < len) by (destruct I2 as (_ & _ & E & _); rewrite E in Hc; lia).
      eapply tot_weaken; [apply (tot_body M0 (1 + N.of_nat k)); auto|]. cbv beta. intros l3 m3 I3. split; [|lia].
      now replace (1 + N.of_nat (S k)) with (1 + N.of_nat k + 1) by lia. }
    intros k l2 m2 [(C & Rc & E1 & _ & E3 & E4) Hk] Hc. rewrite E1 in Hc.
    replace (N.min (16 * (1 + N.of_nat k)) U) with U in Rc by lia.
    apply (tot_while (fun t (st : state * Z * N) m' => m' = m2 /\ snd (fst st) = (Z.of_N len - 8 * Z.of_N (N.of_nat (k + t)))%Z /\
      (-8 <= snd (fst st))%Z /\ ((0 <= snd (fst st))%Z -> snd st = ulA UL (8 * N.of_nat (k + t)))) (S (N.to_nat (len / 8)))).
    - cbn [fst snd]. split; auto. rewrite E3, E4. split; [lia|]. split; [lia|]. intros _. f_equal. lia.
    - lia.
    - intros t [[s0 r0] i0] m' (-> & E & H8 & _). cbn [fst snd] in *. lia.
    - intros t [[s0 r0] i0] m' (-> & E & H8 & Hi). cbn [fst snd] in *. intros Hc2. assert (H0 : (0 <= r0)%Z) by lia. specialize (Hi H0).
      destruct (mod_mult 8 (N.of_nat (k + t)) ltac:(lia) U8) as [J3 J4].
      unfold mac_rest. tb. replace r0 with (Z.of_N (Z.to_N r0)) at 1 by lia. apply (tot_mac_lane m2 _ _ U); auto; try lia.
      intros ln. cbn [fst snd]. tb. apply tot_perm. intros s1. tb. apply tot_ssub; [lia|]. apply tot_ret. cbn [fst snd].
      split; auto. split; [lia|]. split; [lia|]. intros H1. rewrite Hi. replace (N.min 8 (Z.to_N r0)) with 8 by lia.
      rewrite ulA_add. f_equal. clear. lia.
    - intros t [[s0 r0] i0] m' (-> & _) _. now apply HQ.
  Qed.
End LenAvx.

Lemma tot_mac_enc UL cf k npub ad alen c mp len tag mm : strict cf = false -> 4 <= UL <= 63 -> 2 ^ UL <= len -> len < 2 ^ 63 ->
  rdN mm k 16 -> rdN mm npub 16 -> rdN mm RefIsap.ISAP_IV_A 8 -> rdN mm RefIsap.ISAP_IV_KA 8 -> rdN mm RefIsap.ISAP_IV_KE 8 ->
  rdN mm ad (ulA UL alen) -> rdN mm mp len -> inN mm c (2 ^ UL) -> inN mm tag 16 ->
  tot (isap_mac_enc UL cf k npub ad alen c len mp len tag) mm (fun _ m' => chg (fun p => reg c (2 ^ UL) p \/ reg tag 16 p) mm m').
Proof.
  intros Hs HU HL HL63 Rk Rn R1 R2 R3 Ra Rm Ic It. unfold isap_mac_enc.
  assert (Rd : forall m p n b, rdN m p n -> rdN (m ++ [b]) p n).
  { intros m p n b H i Hi. specialize (H i Hi). destruct (rd1 m (padd p i)) as [v|] eqn:E; [|congruence].
    rewrite (rd1_app m [b] _ v E). discriminate. }
  assert (Id : forall m p n b, inN m p n -> inN (m ++ [b]) p n).
  { intros m p n b H i Hi. apply inside_app. now apply H. }
  assert (In : forall m n, inN (m ++ [uninit n]) (P (length m) 0) (N.of_nat n)).
  { intros m n i Hi. unfold inside, padd. cbn [pb po]. replace (length m) with (length m + 0)%nat by lia. rewrite blk_app2. unfold blk. cbn [nth].
    unfold uninit. rewrite repeat_length. lia. }
  apply tot_with_block. set (sm := P (length mm) 0). set (m1 := mm ++ [uninit 40]).
  apply (tot_weaken _ _ (fun _ m' => chg (fun p => (reg c (2 ^ UL) p \/ reg tag 16 p) \/ (length mm <= pb p)%nat) m1 m')); [|auto].
  apply tot_with_block. set (se := P (length m1) 0). set (m2 := m1 ++ [uninit 40]).
  set (W := fun p : ptr => ((reg c (2 ^ UL) p \/ reg tag 16 p) \/ (length mm <= pb p)%nat) \/ (length m1 <= pb p)%nat).
  assert (Ws : forall q n p, reg q n p -> pb q = length mm \/ pb q = length m1 -> W p).
  { intros q n p [E _] H. unfold W, m1 in *. rewrite app_length in *. cbn [length] in *. lia. }
  assert (Is : inN m2 sm 40) by (apply Id; exact (In mm 40%nat)). assert (Ie : inN m2 se 40) by exact (In m1 40%nat).
  assert (Q : forall p n, rdN mm p n -> rdN m2 p n) by (intros; now apply Rd, Rd).
  assert (QI : forall p n, inN mm p n -> inN m2 p n) by (intros; now apply Id, Id).
  apply tot_bind. apply (tot_rk cf Hs m2 k _ npub se _ 24); auto. { eapply inN_le; eauto. lia. }
  intros m3 C3 S3.
  assert (D3 : chg W m2 m3) by (eapply chg_sub; [exact C3|]; intros p Hp; eapply Ws; eauto).
  apply tot_bind. apply (tot_load_ull cf Hs). { eapply rdN_at; [eapply rdN_chg; [exact D3|]; apply Q, Rn|lia]. } intros w1.
  apply tot_bind. apply (tot_store_ull cf Hs). { eapply inN_at; [eapply inN_chg; [exact D3|exact Ie]|lia]. } intros m4 C4 S4.
  assert (D4 : chg W m2 m4).
  { eapply chg_trans; [exact D3|]. eapply chg_sub; [exact C4|]. intros p Hp. eapply Ws; [exact Hp|]. now right. }
  apply tot_bind. apply (tot_load_ull cf Hs). { eapply rdN_at; [eapply rdN_chg; [exact D4|]; apply Q, Rn|lia]. } intros w2.
  apply tot_bind. apply (tot_store_ull cf Hs). { eapply inN_at; [eapply inN_chg; [exact D4|exact Ie]|lia]. } intros m5 C5 S5.
  assert (D5 : chg W m2 m5).
  { eapply chg_trans; [exact D4|]. eapply chg_sub; [exact C5|]. intros p Hp. eapply Ws; [exact Hp|]. now right. }
  assert (Q5 : forall p n, rdN mm p n -> rdN m5 p n) by (intros; eapply rdN_chg; eauto).
  assert (QI5 : forall p n, inN m2 p n -> inN m5 p n) by (intros; eapply inN_chg; eauto).
  do 3 (apply tot_bind; apply (tot_load_word cf Hs); [eapply rdN_at; [apply Q5; eassumption|lia]|let w := fresh "w" in intros w]).
  apply tot_bind. apply tot_perm. intros s1. apply tot_bind. apply (tot_absorb UL cf Hs); [now apply Q5|]. intros s2.
  assert (S24 : rdN m5 se 40).
  { intros i Hi. destruct (N.ltb_spec i 24).
    - apply (rdN_chg _ _ _ _ _ C5 (rdN_chg _ _ _ _ _ C4 S3)); lia.
    - destruct (N.ltb_spec i 32).
      + specialize (rdN_chg _ _ _ _ _ C5 S4 (i - 24) ltac:(lia)). rewrite padd_padd. now replace (24 + (i - 24)) with i by lia.
      + specialize (S5 (i - 32) ltac:(lia)). rewrite padd_padd in S5. now replace (32 + (i - 32)) with i in S5 by lia. }
  do 5 (apply tot_bind; apply (tot_load_word cf Hs); [eapply rdN_at; [exact S24|lia]|let w := fresh "w" in intros w]).
  set (l0 := Lst _ _ _ _ _ _).
  enough (G : tot (st <- (l <- mac_enc_body UL c mp len l0 ;;
         l <- while_ (S (N.to_nat (len / 16))) (fun l => 0 <? l_enc l)%Z (mac_enc_body UL c mp len) l ;;
         while_ (S (S (N.to_nat (len / 8)))) (fun st => 0 <=? snd (fst st))%Z (mac_rest UL c) (snd (l_v l), l_mac l, l_imac l)) ;;
         finishA cf k (fst (fst st)) sm tag) m5 (fun _ m' => chg W m2 m')).
  { destruct G as (a & m' & R & H). exists a, m'. split; auto. intros t. destruct (R t) as [t' E]. exists t'. rewrite <- E. unfold bind.
    destruct (mac_enc_body UL c mp len l0 (St m5 t)); try reflexivity.
    destruct (while_ (S (N.to_nat (len / 16))) (fun l => 0 <? l_enc l)%Z (mac_enc_body UL c mp len) a0 s); reflexivity. }
  apply tot_bind. apply (tot_loops UL cf HU c mp len HL HL63 m5).
  - apply QI5, QI, Ic.
  - apply Q5, Rm.
  - assert (Es : s64 len = Z.of_N len) by (unfold s64; replace (len <? 2 ^ 63) with true by lia; reflexivity).
    unfold linv, l0. cbn [l_enc l_mac l_ienc l_imac]. rewrite Es. split; [apply chg_refl|]. split; [intros i Hi; lia|].
    assert (2 ^ UL <> 0) by now apply N.pow_nonzero. repeat split; try lia; intros; symmetry; apply ulA_small; lia.
  - intros st m6 C6. assert (D6 : chg W m2 m6).
    { eapply chg_trans; [exact D5|]. eapply chg_sub; [exact C6|]. intros p Hp. left. left. now left. }
    apply (tot_finish UL cf Hs m6); try (eapply rdN_chg; [exact D6|]; now apply Q); try (eapply inN_chg; [exact D6|]; auto).
    intros m7 C7. eapply chg_trans; [exact D6|]. eapply chg_sub; [exact C7|]. intros p [Hp|Hp].
    + eapply Ws; [exact Hp|]. now left.
    + left. left. now right.
Qed.

(* The bytes of the ciphertext buffer from position 2^UL on keep the contents they had before the call. *)
Lemma avxa_enc_tail UL cf mm c clen m ad npub k K Nn A T : 4 <= UL <= 63 -> strict cf = false -> enc_valid cf csA mm c clen m ad npub k K Nn A T ->
  2 ^ UL <= N.of_nat (length T) -> N.of_nat (length T) < 2 ^ 63 ->
  exists m1, runs (a_enc (impl_avxa UL cf) c clen m (N.of_nat (length T)) ad (N.of_nat (length A)) npub k) mm 0%Z m1 /\
    forall i, 2 ^ UL <= N.of_nat i -> (i < length T)%nat -> cellp m1 (padd c (N.of_nat i)) = cellp mm (padd c (N.of_nat i)).
Proof.
  intros HU Hs V GT L63.
  destruct V as [Vc [[Bk Hk] Lk] [[Bn Hn] Ln] [[Ba Ha] La] [[Bt Ht] Lt] [Rc Pc] [Rl [Pl Al]]
      (D1 & D2 & D3 & D4 & D5) (D6 & D7 & D8) Hf].
  set (n := N.of_nat (length T)) in *.
  assert (P0 : 2 ^ UL <> 0) by now apply N.pow_nonzero.
  destruct (csA_ivs mm Vc) as (I1 & I2 & I3).
  apply rdN_has in Hk, Hn, Ha, Ht, I1, I2, I3. rewrite Lk in Hk. rewrite Ln in Hn. change (N.of_nat 16) with 16 in *.
  assert (L8 : forall iv, iv = Spec.iv_A IA \/ iv = Spec.iv_KA IA \/ iv = Spec.iv_KE IA -> N.of_nat (length iv) = 8) by (intros iv [->|[->| ->]]; reflexivity).
  rewrite L8 in I1, I2, I3 by auto.
  assert (Ic : inN mm c (n + 16)) by (apply inN_room in Rc; eapply inN_le; [exact Rc|lia]).
  apply inN_room in Rl. change (N.of_nat 8) with 8 in Rl.
  cbn [impl_avxa a_enc]. unfold crypto_aead_encryptA, RefIsap.ISAP_TAG_SZ.
  enough (G : tot (RefIsap.store_ull cf clen (u64 (n + 16)) ;; isap_mac_enc UL cf k npub ad (N.of_nat (length A)) c n m n (padd c n) ;; ret 0%Z) mm
    (fun a m' => a = 0%Z /\ chg (fun p => reg clen 8 p \/ reg c (2 ^ UL) p \/ reg (padd c n) 16 p) mm m')).
  { destruct G as (a & m1 & R & -> & C). exists m1. split; [exact R|]. intros i Hi Hi2. apply (chg_eq _ _ _ C). intros [H|[H|H]].
    - destruct H as [E1 E2]. cbn [padd pb po] in E1, E2. apply (D5 (N.to_nat (po c + N.of_nat i - po clen)) i); [lia|lia|].
      unfold padd. f_equal; [congruence|]. lia.
    - destruct H as [E1 E2]. cbn [padd pb po] in E1, E2. lia.
    - destruct H as [E1 E2]. cbn [padd pb po] in E1, E2. unfold n in E2. lia. }
  apply tot_bind. apply (tot_store_ull cf Hs); auto. intros m1 C1 _.
  apply tot_bind. eapply tot_weaken; [apply (tot_mac_enc UL cf k npub ad _ c m n (padd c n) m1 Hs HU GT L63)|];
    try (eapply rdN_chg; [exact C1|]; assumption).
  - eapply rdN_chg; [exact C1|]. eapply rdN_le; [exact Ha|]. unfold ulA. now apply N.mod_le.
  - eapply inN_chg; [exact C1|]. eapply inN_le; [exact Ic|lia].
  - eapply inN_chg; [exact C1|]. eapply inN_at; [exact Ic|lia].
  - cbv beta. intros _ m2 C2. apply tot_ret. split; auto. eapply chg_trans; eapply chg_sub; eauto; intros p Hp; tauto.
Qed.

(* Encrypting a text in place leaves these bytes in clear. *)
Lemma avxa_enc_clear UL cf mm p clen ad npub k K Nn A T1 T2 : 4 <= UL <= 63 -> strict cf = false ->
  enc_valid cf csA mm p clen p ad npub k K Nn A (T1 ++ T2) -> N.of_nat (length T1) = 2 ^ UL -> N.of_nat (length (T1 ++ T2)) < 2 ^ 63 ->
  exists m1, runs (a_enc (impl_avxa UL cf) p clen p (N.of_nat (length (T1 ++ T2))) ad (N.of_nat (length A)) npub k) mm 0%Z m1 /\
    has m1 (padd p (2 ^ UL)) T2.
Proof.
  intros HU Hs V L1 L63.
  assert (L2 : 2 ^ UL <= N.of_nat (length (T1 ++ T2))) by (rewrite app_length; lia).
  destruct (avxa_enc_tail UL cf mm p clen p ad npub k K Nn A (T1 ++ T2) HU Hs V L2 L63) as (m1 & R & E).
  exists m1. split; [exact R|]. destruct (proj1 (ev_msg _ _ _ _ _ _ _ _ _ _ _ _ _ V)) as [_ HT].
  intros i Hi. rewrite app_length in *. rewrite padd_padd. rewrite <- L1, <- Nat2N.inj_add. rewrite rd1_cell, E, <- rd1_cell by lia.
  rewrite HT by (rewrite app_length; lia). rewrite app_nth2 by lia. do 2 f_equal. lia.
Qed.

Lemma avxa_writes_all cf mm c clen m ad npub k K Nn A T : strict cf = false -> enc_valid cf csA mm c clen m ad npub k K Nn A T ->
  N.of_nat (length T) < 2 ^ 63 ->
  exists m1, runs (a_enc (impl_avxa 64 cf) c clen m (N.of_nat (length T)) ad (N.of_nat (length A)) npub k) mm 0%Z m1 /\
    has m1 c (Spec.isap_enc Spec.ISAP_A_128A K Nn T) /\ length (Spec.isap_enc Spec.ISAP_A_128A K Nn T) = length T.
Proof.
  intros Hs V L63. pose proof (ev_msg _ _ _ _ _ _ _ _ _ _ _ _ _ V) as [_ Lt]. pose proof (ev_ad _ _ _ _ _ _ _ _ _ _ _ _ _ V) as [_ La].
  eexists. split; [apply avxa_enc; [exact Hs|split; [exact La|split; [lia|exact L63]]|exact V]|].
  rewrite encrypt_split. destruct V as [_ [[Bk Hk] Lk] [[Bn Hn] Ln] [[Ba Ha] _] [[Bt Ht] _] [Rc _] [Rl _] _ _ _].
  assert (LE : length (Spec.isap_enc Spec.ISAP_A_128A K Nn T) = length T) by now apply (v_enc_length A128A).
  split; [|exact LE]. eapply has_prefix. apply has_putp_same.
  destruct (v_mac A128A K Nn A (Spec.isap_enc Spec.ISAP_A_128A K Nn T)) as [_ Lm]; auto. { now apply (v_enc_bytes A128A). }
  change (v_inst A128A) with Spec.ISAP_A_128A in Lm. rewrite app_length, LE, Lm. now apply room_putp.
Qed.

Lemma avxa_clear_witness : exists cf K Nn A T mm p clen ad npub k m1 x,
  strict cf = false /\ enc_valid cf csA mm p clen p ad npub k K Nn A (T ++ [x]) /\
  runs (a_enc (impl_avxa 32 cf) p clen p (N.of_nat (length (T ++ [x]))) ad (N.of_nat (length A)) npub k) mm 0%Z m1 /\
  rd1 m1 (padd p (N.of_nat (length T))) = Some x.
Proof.
  set (T := many 0 ++ [77]). destruct many_tail as [L1 _]. fold T in L1. pose proof (many_length 0) as LM.
  assert (BT : bytes T). { apply bytes_app. split; [now apply many_bytes|repeat constructor]. }
  assert (V : enc_valid lax_cf csA (ex_mem_inplace csA ex_K ex_N ex_A T) (ex_ptr csA 3) (ex_ptr csA 5) (ex_ptr csA 3) (ex_ptr csA 2)
            (ex_ptr csA 1) (ex_ptr csA 0) ex_K ex_N ex_A T).
  { apply ex_inplace_valid; auto using ex_bytes_K, ex_bytes_N, ex_bytes_A; try reflexivity. rewrite L1, Nat2N.inj_add, LM. reflexivity. }
  destruct (avxa_enc_clear 32 lax_cf _ _ _ _ _ _ _ _ _ (many 0) [77] ltac:(lia) eq_refl V LM) as (m1 & R & H).
  - fold T. rewrite L1, Nat2N.inj_add, LM. reflexivity.
  - exists lax_cf, ex_K, ex_N, ex_A, (many 0). do 6 eexists. exists m1, 77. split; [reflexivity|]. split; [exact V|]. split; [exact R|].
    specialize (H 0%nat ltac:(cbn [length]; lia)). rewrite padd_0 in H. rewrite LM. exact H.
Qed.
