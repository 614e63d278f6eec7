(* Traces of the two API functions of crypto_aead.c, given those of isap_enc and isap_mac. Proofs only. *)
From Verif Require Import Base Prog SpecPerm Words Mem Vocab VocabK MemProof RefLib Sponge RefProof RefAead SpecFacts Trace Ct.
From Verif Require Spec RefIsap ApiCode.
From Verif Require Import Api ApiProof.
Import Spec(inst, i_sz, i_rate, i_sH, i_sB, i_sE, i_sK, i_perm).
Open Scope N_scope.
Open Scope cm_scope.

(* Two runs from given memories to given memories, leaving the same events, among them the permutation calls ps. *)
Definition pt {A} (ps : list N) (f : M A) (m : mem) (a : A) (m' : mem) (g : M A) (n : mem) (b : A) (n' : mem) : Prop :=
  forall t, exists u, f (St m t) = Ok a (St m' (u ++ t)) /\ g (St n t) = Ok b (St n' (u ++ t)) /\ perms u = ps.

Lemma pt_ct {A} ps (R : A -> A -> Prop) (f g : M A) m a m' n b n' :
  layout m n -> runs f m a m' -> runs g n b n' -> ct ps R f g -> pt ps f m a m' g n b n'.
Proof.
  intros L R1 R2 H t. destruct (R1 t) as (t1 & E1). destruct (R2 t) as (t2 & E2).
  destruct (H _ _ _ _ _ _ _ L E1 E2) as (u & U1 & U2 & Pu & _). cbn [strc] in *. subst t1 t2. eauto.
Qed.
Lemma layout_ct {A} ps (R : A -> A -> Prop) (f g : M A) m a m' n b n' :
  layout m n -> runs f m a m' -> runs g n b n' -> ct ps R f g -> layout m' n'.
Proof.
  intros L R1 R2 H. destruct (R1 []) as (t1 & E1). destruct (R2 []) as (t2 & E2).
  destruct (H _ _ _ _ _ _ _ L E1 E2) as (u & _ & _ & _ & L' & _). exact L'.
Qed.
Lemma pt_bind {A B} ps qs (f g : M A) (f' g' : A -> M B) m a m1 x m2 n b n1 y n2 :
  pt ps f m a m1 g n b n1 -> pt qs (f' a) m1 x m2 (g' b) n1 y n2 -> pt (ps ++ qs) (bind f f') m x m2 (bind g g') n y n2.
Proof.
  intros H1 H2 t. destruct (H1 t) as (u & E1 & E2 & Pu). destruct (H2 (u ++ t)) as (w & F1 & F2 & Pw).
  exists (w ++ u). unfold bind. rewrite E1, E2, F1, F2, !app_assoc. split; auto. split; auto. now rewrite perms_app, Pu, Pw.
Qed.
Lemma pt_ret {A} (a b : A) m n : pt [] (ret a) m a m (ret b) n b n.
Proof. intros t. exists []. auto. Qed.
Lemma pt_branch b m n : pt [] (branch b) m b m (branch b) n b n.
Proof. intros t. exists [EBr b]. auto. Qed.
Lemma pt_if {A} ps (b : bool) (x y x' y' : M A) m r m' n s n' :
  pt ps (if b then x else y) m r m' (if b then x' else y') n s n' -> pt ps (if_ b x y) m r m' (if_ b x' y') n s n'.
Proof. intros H. change ps with ([] ++ ps). unfold if_. eapply pt_bind; [apply pt_branch|exact H]. Qed.
Lemma pt_for_nat {A} (I J : nat -> A) (F G : N -> A -> M A) m n k : forall i j,
  (forall x, (j <= x < j + k)%nat -> pt [] (F (i + N.of_nat (x - j)) (I x)) m (I (S x)) m (G (i + N.of_nat (x - j)) (J x)) n (J (S x)) n) ->
  pt [] (for_nat k i F (I j)) m (I (j + k)%nat) m (for_nat k i G (J j)) n (J (j + k)%nat) n.
Proof.
  induction k as [|k IH]; intros i j H; cbn [for_nat].
  - rewrite Nat.add_0_r. change (@nil N) with (@nil N ++ []). eapply pt_bind; [apply pt_branch|]. apply pt_ret.
  - change (@nil N) with (@nil N ++ []). eapply pt_bind; [apply pt_branch|].
    change (@nil N) with (@nil N ++ []). eapply pt_bind.
    { specialize (H j ltac:(lia)). rewrite Nat.sub_diag in H. change (N.of_nat 0) with 0 in H. rewrite N.add_0_r in H. exact H. }
    replace (j + S k)%nat with (S j + k)%nat by lia. apply IH. intros x Hx. specialize (H x ltac:(lia)).
    now replace (i + 1 + N.of_nat (x - S j)) with (i + N.of_nat (x - j)) by lia.
Qed.
Lemma pt_for {A} (I J : nat -> A) (F G : N -> A -> M A) m n k y a b : y = N.of_nat k -> a = I 0%nat -> b = J 0%nat ->
  (forall x, (x < k)%nat -> pt [] (F (N.of_nat x) (I x)) m (I (S x)) m (G (N.of_nat x) (J x)) n (J (S x)) n) ->
  pt [] (for_ 0 y F a) m (I k) m (for_ 0 y G b) n (J k) n.
Proof.
  intros -> -> -> H. unfold for_. replace (N.to_nat (N.of_nat k - 0)) with k by lia.
  apply (pt_for_nat I J F G m n k 0 0). intros x Hx. rewrite Nat.sub_0_r, N.add_0_l. apply H. lia.
Qed.

(* ---- What is to be shown of an implementation ---- *)
Definition enc_traced (cf : cfg) (cs : list (list N)) (ex : ext) (X : aead) (ps : nat -> nat -> list N) : Prop :=
  forall mm mm' c clen m ad npub k K Nn A T K' Nn' A' T',
  ex mm k npub ad (length A) m c (length T) -> ex mm' k npub ad (length A') m c (length T') ->
  enc_valid cf cs mm c clen m ad npub k K Nn A T -> enc_valid cf cs mm' c clen m ad npub k K' Nn' A' T' ->
  length A = length A' -> length T = length T' -> layout mm mm' ->
  forall t, exists s s',
    a_enc X c clen m (N.of_nat (length T)) ad (N.of_nat (length A)) npub k (St mm t) = Ok 0%Z s /\
    a_enc X c clen m (N.of_nat (length T)) ad (N.of_nat (length A)) npub k (St mm' t) = Ok 0%Z s' /\
    strc s = strc s' /\ perms (strc s) = perms t ++ ps (length A) (length T).
Definition dec_traced (cf : cfg) (cs : list (list N)) (ex : ext) (X : aead) (ps : nat -> nat -> list N) (qs : nat -> list N) : Prop :=
  forall mm mm' m mlen c ad npub k K Nn A Y K' Nn' A' Y',
  ex mm k npub ad (length A) c m (length Y - 16)%nat -> ex mm' k npub ad (length A') c m (length Y' - 16)%nat ->
  dec_valid cf cs mm m mlen c ad npub k K Nn A Y -> dec_valid cf cs mm' m mlen c ad npub k K' Nn' A' Y' ->
  length A = length A' -> length Y = length Y' -> layout mm mm' ->
  forall t, exists r s r' s' t0 u u',
    a_dec X m mlen c (N.of_nat (length Y)) ad (N.of_nat (length A)) npub k (St mm t) = Ok r s /\
    a_dec X m mlen c (N.of_nat (length Y)) ad (N.of_nat (length A)) npub k (St mm' t) = Ok r' s' /\
    strc s = u ++ EBr (r =? 0)%Z :: t0 /\ strc s' = u' ++ EBr (r' =? 0)%Z :: t0 /\
    (r <> 0%Z -> u = []) /\ (r' <> 0%Z -> u' = []) /\ (r = r' -> u = u') /\
    perms (strc s) = perms t ++ ps (length A) (length Y - 16)%nat ++ (if (r =? 0)%Z then qs (length Y - 16)%nat else []).

Section ApiCt.
  Variables (I : Spec.inst) (cf : cfg) (cs : list (list N)).
  Variable prek : ptr -> Prop.
  Variable prea : ptr -> nat -> Prop.
  Variable okb : nat -> Prop.
  Variable lim : N.
  Variable sl : nat -> nat.
  Variable enc : forall (k npub m : ptr) (mlen : N) (c : ptr), M unit.
  Variable mac : forall (k npub ad : ptr) (adlen : N) (c : ptr) (clen : N) (tag : ptr), M unit.
  Hypothesis Henc : enc_spec_e cs prek prea okb lim enc (Spec.isap_enc I).
  Hypothesis Hmac : mac_spec_f cs prek prea okb lim sl mac (Spec.isap_mac I).
  Hypothesis Hmf : macf_ok (Spec.isap_mac I).
  Hypothesis Hne : forall i, (i < length cs)%nat -> nth i cs [] <> [].
  Hypothesis Hsl : forall n, (sl n <= n + 16)%nat.
  Hypothesis Hcm : forall k npub ad a c n tag, N.of_nat a < lim -> N.of_nat n < lim ->
    ct (calls_mac I a n) any (mac k npub ad (N.of_nat a) c (N.of_nat n) tag) (mac k npub ad (N.of_nat a) c (N.of_nat n) tag).
  Hypothesis Hce : forall k npub m n c, N.of_nat n < lim -> (0 < n)%nat ->
    ct (calls_enc I n) any (enc k npub m (N.of_nat n) c) (enc k npub m (N.of_nat n) c).

  Lemma ct_crypto_aead_encrypt c clen m n ad a npub k : N.of_nat a < lim -> N.of_nat n < lim ->
    ct (calls_enc I n ++ calls_mac I a n) any
      (ApiCode.crypto_aead_encrypt enc mac cf c clen m (N.of_nat n) ad (N.of_nat a) npub k)
      (ApiCode.crypto_aead_encrypt enc mac cf c clen m (N.of_nat n) ad (N.of_nat a) npub k).
  Proof.
    intros G1 G2. unfold ApiCode.crypto_aead_encrypt. eapply ct_bind0; [apply ct_store_ull|]. intros ? ? _.
    eapply ct_bind.
    - apply (ct_if _ any); intros E; [apply Hce; auto; lia|]. unfold calls_enc. replace (n =? 0)%nat with true by lia. now apply ct_ret.
    - intros ? ? _. rewrite <- (app_nil_r (calls_mac I a n)). eapply ct_bind; [now apply Hcm|]. intros. now apply ct_ret.
  Qed.

  Lemma locs_putp' (m : mem) p bs : locs okb m -> locs okb (putp m p bs).
  Proof. intros H b Hb. apply H. now rewrite putp_length in Hb. Qed.
  Lemma locs_app' (m : mem) l : locs okb m -> locs okb (m ++ l).
  Proof. intros H b Hb. apply H. rewrite app_length in Hb. lia. Qed.

  Definition cmp_loop (mlen c tag : ptr) : M N :=
    for_ 0 RefIsap.ISAP_TAG_SZ (fun i eq_cnt =>
        a <- load (padd tag i) ;;
        ml <- RefIsap.load_ull cf mlen ;;
        b <- load (padd c (u64 (ml + i))) ;;
        ret (eq_cnt + (if a =? b then 1 else 0))) 0.
  Definition dec_fin (k npub mlen c m : ptr) (e : N) : M Z :=
      if_ (e =? RefIsap.ISAP_TAG_SZ)
        (ml <- RefIsap.load_ull cf mlen ;;
         if_ (0 <? ml) (ml <- RefIsap.load_ull cf mlen ;; enc k npub c ml m) (ret tt) ;;
         ret 0%Z)
        (ret (-1)%Z).

  (* The states of one run. *)
  Lemma dec_states mm m mlen c ad npub k K Nn A Y :
    locs okb mm -> dec_valid cf cs mm m mlen c ad npub k K Nn A Y ->
    N.of_nat (length A) < lim -> N.of_nat (length Y) - 16 < lim ->
    prek k -> prek npub -> prea ad (length A) -> prea m (length Y - 16) -> prea c (length Y - 16) -> room mm ad (sl (length A)) ->
    let n := (length Y - 16)%nat in
    let m1 := putp mm mlen (word_le 8 (N.of_nat n)) in
    exists T m3, let m2 := m1 ++ [map Some T] in
    runs (RefIsap.store_ull cf mlen (N.of_nat n)) mm tt m1 /\
    has m1 mlen (word_le 8 (N.of_nat n)) /\
    runs (mac k npub ad (N.of_nat (length A)) c (N.of_nat n) (P (length m1) 0)) (m1 ++ [uninit 16]) tt m2 /\
    has m2 (P (length m1) 0) T /\ length T = 16%nat /\ length (skipn n Y) = 16%nat /\
    has m2 (padd c (N.of_nat n)) (skipn n Y) /\
    N.of_nat n + 16 < 2 ^ 64 /\ aligned cf mlen 8 = true /\
    ((0 < n)%nat -> runs (enc k npub c (N.of_nat n) m) m2 tt m3).
  Proof.
    intros Hok V G1 G2 P1 P2 P3 P4 P5 Rad. cbv zeta.
    destruct V as [Vc [[Bk Hk] Lk] [[Bn Hn] Ln] [[Ba Ha] La] [[By Hy] [Ly Gy]] [Rm Pm] [Rl [Pl Al]]
      (D1 & D2 & D3 & D4 & D5) (D6 & D7 & D8) Hf].
    set (n := (length Y - 16)%nat) in *. replace (N.of_nat (length Y) - 16) with (N.of_nat n) in * by lia.
    set (m1 := putp mm mlen (word_le 8 (N.of_nat n))).
    assert (Hl8 : room mm mlen (length (word_le 8 (N.of_nat n)))) by now rewrite word_le_length.
    assert (F1 : forall q bs, has mm q bs -> disj mlen 8 q (length bs) -> has m1 q bs).
    { intros q bs H1 H2. apply has_putp_disj; rewrite ?word_le_length; auto. }
    assert (R1 : forall q j, room mm q j -> room m1 q j) by (intros; now apply room_putp).
    assert (C1 : consts_ok cs m1) by now apply consts_putp.
    assert (O1 : locs okb m1) by now apply locs_putp'.
    assert (Hml : has m1 mlen (word_le 8 (N.of_nat n))) by now apply has_putp_same.
    set (C := firstn n Y). set (tg := skipn n Y).
    assert (LC : length C = n) by (unfold C; rewrite firstn_length; lia).
    assert (Ltg : length tg = 16%nat) by (unfold tg; rewrite skipn_length; lia).
    assert (BC : bytes C) by now apply bytes_firstn.
    assert (P6 : prea c (length C)) by now rewrite LC.
    assert (P7 : prea m (length C)) by now rewrite LC.
    assert (HY1 : has m1 c Y) by now apply F1.
    assert (HC1 : has m1 c C) by now apply has_firstn.
    assert (Htg1 : has m1 (padd c (N.of_nat n)) tg) by now apply has_skipn.
    assert (Hk1 : has m1 k K) by (apply F1; auto; now rewrite Lk).
    assert (Hn1 : has m1 npub Nn) by (apply F1; auto; now rewrite Ln).
    assert (Ha1 : has m1 ad A) by (apply F1; auto).
    set (T := Spec.isap_mac I K Nn A C).
    destruct (Hmf K Nn A C) as [BT LT]; auto. fold T in BT, LT.
    set (m2 := m1 ++ [map Some T]).
    assert (Hlen1 : (length cs <= length m1)%nat).
    { apply Nat.le_trans with (pb mlen); auto. unfold m1. rewrite putp_length. apply Nat.lt_le_incl, (room_pb mm mlen 8); auto. lia. }
    exists T, (putp m2 m (Spec.isap_enc I K Nn C)). fold m2.
    split; [now apply runs_store_ull|]. split; [exact Hml|]. split.
    { rewrite <- LC. eapply runs_eq; [apply Hmac with (K := K) (Nn := Nn) (A := A) (C := C)| |]; auto.
      - apply consts_app; auto.
      - now apply locs_app'.
      - split; auto. now apply has_app.
      - split; auto. now apply has_app.
      - split; auto. now apply has_app.
      - split; auto. now apply has_app.
      - now rewrite LC.
      - apply room_of_le. cbn [pb po]. rewrite blk_mid, uninit_length. lia.
      - apply disj_blocks. cbn [pb]. apply Nat.neq_sym, Nat.lt_neq, (has_pb m1 k K); auto. destruct K; discriminate.
      - apply disj_blocks. cbn [pb]. apply Nat.neq_sym, Nat.lt_neq, (has_pb m1 npub Nn); auto. destruct Nn; discriminate.
      - destruct A as [|a0 A']; [intros i j Hi Hj; cbn [length] in Hj; lia|].
        apply disj_blocks. cbn [pb]. apply Nat.neq_sym, Nat.lt_neq, (has_pb m1 ad (a0 :: A')); auto. discriminate.
      - destruct C as [|c0 C'] eqn:EC; [intros i j Hi Hj; cbn [length] in Hj; lia|]. rewrite <- EC in *.
        apply disj_blocks. cbn [pb]. apply Nat.neq_sym, Nat.lt_neq, (has_pb m1 c C); auto. rewrite EC. discriminate.
      - apply room_app. now apply R1.
      - apply room_app. apply R1. intros i Hi. apply (room_has _ _ _ Hy). specialize (Hsl (length C)). lia.
      - fold T. unfold putp, put. cbn [pb po]. rewrite blk_mid, upd_mid. change (N.to_nat 0) with 0%nat.
        unfold m2. do 2 f_equal. apply splice_all. now rewrite map_length, uninit_length, LT. }
    split; [apply has_blk0, blk_mid|]. split; [exact LT|]. split; [exact Ltg|].
    split; [now apply has_app|]. split; [lia|]. split; [exact Al|].
    intros En. rewrite <- LC. apply Henc with (K := K) (Nn := Nn) (T := C); auto.
    - apply consts_app; auto.
    - now apply locs_app'.
    - split; auto. now apply has_app.
    - split; auto. now apply has_app.
    - split; auto. now apply has_app.
    - now rewrite LC.
    - lia.
    - rewrite LC. apply room_app. now apply R1.
    - now rewrite LC.
    - now rewrite LC.
    - now rewrite LC.
  Qed.

  (* The loop of the tag comparison in two memories. *)
  Lemma cmp_pt m2 m2' mlen c tag T tg T' tg' n : layout m2 m2' -> aligned cf mlen 8 = true -> N.of_nat n + 16 < 2 ^ 64 ->
    has m2 tag T -> length T = 16%nat -> length tg = 16%nat -> has m2 (padd c (N.of_nat n)) tg -> has m2 mlen (word_le 8 (N.of_nat n)) ->
    has m2' tag T' -> length T' = 16%nat -> length tg' = 16%nat -> has m2' (padd c (N.of_nat n)) tg' -> has m2' mlen (word_le 8 (N.of_nat n)) ->
    pt [] (cmp_loop mlen c tag) m2 (eqs 16 T tg) m2 (cmp_loop mlen c tag) m2' (eqs 16 T' tg') m2'.
  Proof.
    intros Hlay Al Hn H1 H2 H3 H4 H5 G1 G2 G3 G4 G5. unfold cmp_loop. change RefIsap.ISAP_TAG_SZ with (N.of_nat 16).
    apply (pt_for (fun j => eqs j T tg) (fun j => eqs j T' tg')); auto. intros j Hj. cbn [eqs].
    change (@nil N) with (@nil N ++ []). eapply pt_bind.
    { apply (pt_ct [] any _ _ _ (nth j T 0) m2 _ (nth j T' 0) m2'); [exact Hlay|apply runs_load, H1; lia|apply runs_load, G1; lia|apply ct_load]. }
    change (@nil N) with (@nil N ++ []). eapply pt_bind.
    { apply (pt_ct [] any _ _ _ (N.of_nat n) m2 _ (N.of_nat n) m2'); [exact Hlay|apply runs_load_ull; auto; lia|apply runs_load_ull; auto; lia|apply ct_load_ull]. }
    change (@nil N) with (@nil N ++ []). eapply pt_bind.
    { rewrite u64_small by lia. rewrite <- padd_padd.
      apply (pt_ct [] any _ _ _ (nth j tg 0) m2 _ (nth j tg' 0) m2'); [exact Hlay|apply runs_load, H4; lia|apply runs_load, G4; lia|apply ct_load]. }
    apply pt_ret.
  Qed.

  (* Up to the verdict. *)
  Lemma dec_pt mm mm' m mlen c ad npub k K Nn A Y K' Nn' A' Y' :
    locs okb mm -> dec_valid cf cs mm m mlen c ad npub k K Nn A Y -> dec_valid cf cs mm' m mlen c ad npub k K' Nn' A' Y' ->
    N.of_nat (length A) < lim -> N.of_nat (length Y) - 16 < lim ->
    prek k -> prek npub -> prea ad (length A) -> prea m (length Y - 16) -> prea c (length Y - 16) ->
    room mm ad (sl (length A)) -> room mm' ad (sl (length A')) ->
    length A = length A' -> length Y = length Y' -> layout mm mm' ->
    forall t, exists r s r' s' t0 u u',
      ApiCode.crypto_aead_decrypt enc mac cf m mlen c (N.of_nat (length Y)) ad (N.of_nat (length A)) npub k (St mm t) = Ok r s /\
      ApiCode.crypto_aead_decrypt enc mac cf m mlen c (N.of_nat (length Y)) ad (N.of_nat (length A)) npub k (St mm' t) = Ok r' s' /\
      strc s = u ++ EBr (r =? 0)%Z :: t0 /\ strc s' = u' ++ EBr (r' =? 0)%Z :: t0 /\
      (r <> 0%Z -> u = []) /\ (r' <> 0%Z -> u' = []) /\ (r = r' -> u = u') /\
      perms t0 = perms t ++ calls_mac I (length A) (length Y - 16)%nat /\ (r = 0%Z -> perms u = calls_enc I (length Y - 16)%nat).
  Proof.
    intros Hok V V' GA GY P1 P2 P3 P4 P5 Rad Rad' EA EY Hlay t.
    assert (Hok' : locs okb mm') by (intros b Hb; apply Hok; now rewrite (layout_length _ _ Hlay)).
    assert (Gy : 16 <= N.of_nat (length Y) < 2 ^ 64).
    { pose proof (proj2 (dv_ct _ _ _ _ _ _ _ _ _ _ _ _ _ V)). lia. }
    destruct (dec_states _ _ _ _ _ _ _ _ _ _ _ Hok V GA GY P1 P2 P3 P4 P5 Rad) as (T & m3 & R1 & Hml & R2 & HT & LT & Ltg & Htg & Hn & Al & R3).
    rewrite EA in GA, P3. rewrite EY in GY, P4, P5.
    destruct (dec_states _ _ _ _ _ _ _ _ _ _ _ Hok' V' GA GY P1 P2 P3 P4 P5 Rad') as (T' & m3' & R1' & Hml' & R2' & HT' & LT' & Ltg' & Htg' & _ & _ & R3').
    rewrite <- EY in GY, R1', Hml', R2', Htg', HT', Ltg', R3'. rewrite <- EA in GA, R2'. cbv zeta in *.
    set (n := (length Y - 16)%nat) in *.
    set (m1 := putp mm mlen (word_le 8 (N.of_nat n))) in *. set (m1' := putp mm' mlen (word_le 8 (N.of_nat n))) in *.
    set (tg := skipn n Y) in *. set (tg' := skipn n Y') in *.
    assert (Lm : layout m1 m1') by exact (layout_ct _ _ _ _ _ _ _ _ _ _ Hlay R1 R1' (ct_store_ull cf mlen (N.of_nat n) (N.of_nat n))).
    assert (Lg : length m1' = length m1) by (symmetry; now apply layout_length). rewrite Lg in *.
    assert (Lu : layout (m1 ++ [uninit 16]) (m1' ++ [uninit 16])) by now apply layout_app.
    set (m2 := m1 ++ [map Some T]) in *. set (m2' := m1' ++ [map Some T']) in *.
    assert (L2 : layout m2 m2'). { apply layout_app; auto. now rewrite !map_length, LT, LT'. }
    assert (Hml2 : has m2 mlen (word_le 8 (N.of_nat n))) by now apply has_app.
    assert (Hml2' : has m2' mlen (word_le 8 (N.of_nat n))) by now apply has_app.
    set (e := eqs 16 T tg) in *. set (e' := eqs 16 T' tg') in *.
    set (tag := P (length m1) 0) in *.
    assert (Hg : N.of_nat n < lim) by lia.
    destruct (pt_ct [] eq _ _ _ _ _ _ _ _ Hlay R1 R1' (ct_store_ull cf mlen (N.of_nat n) (N.of_nat n)) t) as (u1 & E1 & E1' & U1).
    assert (Q2 : pt (calls_mac I (length A) n)
        (ml <- RefIsap.load_ull cf mlen ;; mac k npub ad (N.of_nat (length A)) c ml tag ;; cmp_loop mlen c tag) (m1 ++ [uninit 16]) e m2
        (ml <- RefIsap.load_ull cf mlen ;; mac k npub ad (N.of_nat (length A)) c ml tag ;; cmp_loop mlen c tag) (m1' ++ [uninit 16]) e' m2').
    { change (calls_mac I (length A) n) with ([] ++ calls_mac I (length A) n). eapply pt_bind.
      { apply (pt_ct [] any _ _ _ (N.of_nat n) (m1 ++ [uninit 16]) _ (N.of_nat n) (m1' ++ [uninit 16]));
          [exact Lu|apply runs_load_ull; auto; [now apply has_app|lia]|apply runs_load_ull; auto; [now apply has_app|lia]|apply ct_load_ull]. }
      rewrite <- (app_nil_r (calls_mac I (length A) n)). eapply pt_bind.
      { eapply pt_ct; [exact Lu|exact R2|exact R2'|apply Hcm; auto]. }
      apply (cmp_pt _ _ _ _ _ _ _ _ _ n); auto. }
    destruct (Q2 (u1 ++ t)) as (u2 & E2 & E2' & U2).
    set (t0 := u2 ++ u1 ++ t) in *.
    assert (T0 : perms t0 = perms t ++ calls_mac I (length A) n).
    { unfold t0. now rewrite !perms_app, U1, U2, app_nil_r. }
    assert (Dec : forall mx t', ApiCode.crypto_aead_decrypt enc mac cf m mlen c (N.of_nat (length Y)) ad (N.of_nat (length A)) npub k (St mx t') =
      (RefIsap.store_ull cf mlen (N.of_nat n) ;; with_block 16 (fun tag =>
         e <- (ml <- RefIsap.load_ull cf mlen ;; mac k npub ad (N.of_nat (length A)) c ml tag ;; cmp_loop mlen c tag) ;;
         dec_fin k npub mlen c m e)) (St mx t')).
    { intros mx t'. unfold ApiCode.crypto_aead_decrypt. change RefIsap.ISAP_TAG_SZ with 16. rewrite sub64_small by lia.
      replace (N.of_nat (length Y) - 16) with (N.of_nat n) by lia.
      unfold bind at 1. symmetry. unfold bind at 1. destruct (RefIsap.store_ull cf mlen (N.of_nat n) (St mx t')); auto.
      unfold with_block. match goal with |- match ?x with _ => _ end = match ?y with _ => _ end => replace y with x; auto end.
      unfold bind at 1 2. unfold bind at 2. symmetry. unfold bind at 1.
      destruct (RefIsap.load_ull cf mlen _); auto. unfold bind at 1. symmetry.  unfold bind at 1.
      destruct (mac _ _ _ _ _ _ _); auto. }
    (* the verdict *)
    assert (Rej : forall x s, x <> 16 -> dec_fin k npub mlen c m x s = Ok (-1)%Z (St (smem s) (EBr false :: strc s))).
    { intros x s H. unfold dec_fin. change RefIsap.ISAP_TAG_SZ with 16. replace (x =? 16) with false by lia. reflexivity. }
    assert (Acc : exists mf mf', forall t, exists u,
       dec_fin k npub mlen c m 16 (St m2 t) = Ok 0%Z (St mf (u ++ EBr true :: t)) /\
       dec_fin k npub mlen c m 16 (St m2' t) = Ok 0%Z (St mf' (u ++ EBr true :: t)) /\ perms u = calls_enc I n).
    { set (body := (ml <- RefIsap.load_ull cf mlen ;;
         if_ (0 <? ml) (ml <- RefIsap.load_ull cf mlen ;; enc k npub c ml m) (ret tt) ;; ret 0%Z)).
      assert (B : exists mf mf', pt (calls_enc I n) body m2 0%Z mf body m2' 0%Z mf').
      { assert (Ld : pt [] (RefIsap.load_ull cf mlen) m2 (N.of_nat n) m2 (RefIsap.load_ull cf mlen) m2' (N.of_nat n) m2').
        { apply (pt_ct [] any); [exact L2|apply runs_load_ull; auto; lia|apply runs_load_ull; auto; lia|apply ct_load_ull]. }
        destruct (Nat.eq_dec n 0) as [Z|Z].
        - exists m2, m2'. unfold body. unfold calls_enc. replace (n =? 0)%nat with true by lia.
          change (@nil N) with (@nil N ++ []). eapply pt_bind; [exact Ld|].
          change (@nil N) with (@nil N ++ []). eapply pt_bind; [|apply pt_ret].
          apply pt_if. replace (0 <? N.of_nat n) with false by lia. apply pt_ret.
        - exists m3, m3'. unfold body. change (calls_enc I n) with ([] ++ calls_enc I n). eapply pt_bind; [exact Ld|].
          rewrite <- (app_nil_r (calls_enc I n)). eapply pt_bind; [|apply pt_ret].
          apply pt_if. replace (0 <? N.of_nat n) with true by lia.
          change (calls_enc I n) with ([] ++ calls_enc I n). eapply pt_bind; [exact Ld|].
          eapply pt_ct; [exact L2|apply R3; lia|apply R3'; lia|apply Hce; auto; lia]. }
      destruct B as (mf & mf' & B). exists mf, mf'. intros w. destruct (B (EBr true :: w)) as (u & F1 & F2 & U).
      exists u. split; [exact F1|]. split; [exact F2|exact U]. }
    destruct Acc as (mf & mf' & Acc). destruct (Acc t0) as (ua & A1 & A2 & UA).
    assert (Run : forall mx m1x m2x x r s, length m1x = length m1 ->
      RefIsap.store_ull cf mlen (N.of_nat n) (St mx t) = Ok tt (St m1x (u1 ++ t)) ->
      (ml <- RefIsap.load_ull cf mlen ;; mac k npub ad (N.of_nat (length A)) c ml tag ;; cmp_loop mlen c tag) (St (m1x ++ [uninit 16]) (u1 ++ t))
        = Ok x (St m2x t0) ->
      dec_fin k npub mlen c m x (St m2x t0) = Ok r s ->
      ApiCode.crypto_aead_decrypt enc mac cf m mlen c (N.of_nat (length Y)) ad (N.of_nat (length A)) npub k (St mx t)
        = Ok r (St (removelast (smem s)) (strc s))).
    { intros mx m1x m2x x r s Hl X1 X2 X3. rewrite Dec. unfold bind at 1. rewrite X1. unfold with_block. cbn [smem strc]. rewrite Hl. fold tag.
      unfold bind at 1. change (N.to_nat 16) with 16%nat. rewrite X2, X3. reflexivity. }
    assert (S1 : forall x r s, e = x -> dec_fin k npub mlen c m x (St m2 t0) = Ok r s ->
      ApiCode.crypto_aead_decrypt enc mac cf m mlen c (N.of_nat (length Y)) ad (N.of_nat (length A)) npub k (St mm t)
        = Ok r (St (removelast (smem s)) (strc s))).
    { intros x r s Hx X. eapply Run; [|exact E1|exact E2|rewrite Hx; exact X]. reflexivity. }
    assert (S2 : forall x r s, e' = x -> dec_fin k npub mlen c m x (St m2' t0) = Ok r s ->
      ApiCode.crypto_aead_decrypt enc mac cf m mlen c (N.of_nat (length Y)) ad (N.of_nat (length A)) npub k (St mm' t)
        = Ok r (St (removelast (smem s)) (strc s))).
    { intros x r s Hx X. eapply Run; [|exact E1'|exact E2'|rewrite Hx; exact X]. exact Lg. }
    destruct (N.eq_dec e 16) as [He|He]; destruct (N.eq_dec e' 16) as [He'|He'].
    - exists 0%Z; eexists; exists 0%Z; eexists; exists t0, ua, ua.
      split; [exact (S1 _ _ _ He A1)|]. split; [exact (S2 _ _ _ He' A2)|]. cbn [strc].
      split; [reflexivity|]. split; [reflexivity|]. split; [congruence|]. split; [congruence|]. auto.
    - exists 0%Z; eexists; exists (-1)%Z; eexists; exists t0, ua, [].
      split; [exact (S1 _ _ _ He A1)|]. split; [exact (S2 _ _ _ eq_refl (Rej _ _ He'))|]. cbn [strc].
      split; [reflexivity|]. split; [reflexivity|]. split; [congruence|]. split; [auto|]. split; [discriminate|]. auto.
    - exists (-1)%Z; eexists; exists 0%Z; eexists; exists t0, [], ua.
      split; [exact (S1 _ _ _ eq_refl (Rej _ _ He))|]. split; [exact (S2 _ _ _ He' A2)|]. cbn [strc].
      split; [reflexivity|]. split; [reflexivity|]. split; [auto|]. split; [congruence|]. split; [discriminate|]. split; auto. discriminate.
    - exists (-1)%Z; eexists; exists (-1)%Z; eexists; exists t0, [], [].
      split; [exact (S1 _ _ _ eq_refl (Rej _ _ He))|]. split; [exact (S2 _ _ _ eq_refl (Rej _ _ He'))|]. cbn [strc].
      split; [reflexivity|]. split; [reflexivity|]. split; [auto|]. split; [auto|]. split; [auto|]. split; auto. discriminate.
  Qed.

  Lemma api_traced_I ex : impl_ok_if I cf cs ex (api_aead cf enc mac) ->
    (forall mm k npub ad a p q n, ex mm k npub ad a p q n -> N.of_nat a < 2 ^ 64 -> N.of_nat n < 2 ^ 64 -> room mm ad a ->
      locs okb mm /\ N.of_nat a < lim /\ N.of_nat n < lim /\ prek k /\ prek npub /\ prea ad a /\ prea q n /\ prea p n /\ room mm ad (sl a)) ->
    enc_traced cf cs ex (api_aead cf enc mac) (fun a n => calls_enc I n ++ calls_mac I a n) /\
    dec_traced cf cs ex (api_aead cf enc mac) (calls_mac I) (calls_enc I).
  Proof.
    intros HX Hex. split.
    - intros mm mm' c clen m ad npub k K Nn A T K' Nn' A' T' L L' V V' EA ET Hlay t.
      destruct (ioi_enc _ _ _ _ _ HX mm c clen m ad npub k K Nn A T L V t) as (t1 & E1).
      destruct (ioi_enc _ _ _ _ _ HX mm' c clen m ad npub k K' Nn' A' T' L' V' t) as (t2 & E2).
      rewrite <- EA, <- ET in E2.
      destruct (Hex _ _ _ _ _ _ _ _ L) as (_ & G1 & G2 & _).
      { apply (ev_ad _ _ _ _ _ _ _ _ _ _ _ _ _ V). }
      { pose proof (proj2 (ev_msg _ _ _ _ _ _ _ _ _ _ _ _ _ V)). lia. }
      { apply room_has, (ev_ad _ _ _ _ _ _ _ _ _ _ _ _ _ V). }
      destruct (ct_crypto_aead_encrypt c clen m (length T) ad (length A) npub k G1 G2 _ _ _ _ _ _ _ Hlay E1 E2) as (u & U1 & U2 & Pu & _).
      eexists _, _. split; [exact E1|]. split; [exact E2|]. rewrite U1, U2. split; auto. now rewrite perms_app, Pu.
    - intros mm mm' m mlen c ad npub k K Nn A Y K' Nn' A' Y' L L' V V' EA EY Hlay.
      pose proof (proj2 (dv_ct _ _ _ _ _ _ _ _ _ _ _ _ _ V)) as GY.
      destruct (Hex _ _ _ _ _ _ _ _ L) as (G0 & G1 & G2 & G3 & G4 & G5 & G6 & G7 & G8).
      { apply (dv_ad _ _ _ _ _ _ _ _ _ _ _ _ _ V). } { lia. } { apply room_has, (dv_ad _ _ _ _ _ _ _ _ _ _ _ _ _ V). }
      destruct (Hex _ _ _ _ _ _ _ _ L') as (_ & _ & _ & _ & _ & _ & _ & _ & G8').
      { apply (dv_ad _ _ _ _ _ _ _ _ _ _ _ _ _ V'). } { lia. } { apply room_has, (dv_ad _ _ _ _ _ _ _ _ _ _ _ _ _ V'). }
      intros t. destruct (dec_pt mm mm' m mlen c ad npub k K Nn A Y K' Nn' A' Y') with (t := t)
        as (r & s & r' & s' & t0 & u & u' & E1 & E2 & E3 & E4 & U1 & U2 & U3 & P0 & Pu); auto; [lia|].
      exists r, s, r', s', t0, u, u'. do 7 (split; [assumption|]). rewrite E3, perms_app. change (perms (EBr (r =? 0)%Z :: t0)) with (perms t0). rewrite P0, <- app_assoc. do 2 f_equal.
      destruct (Z.eqb_spec r 0) as [Z|Z]; [now apply Pu|now rewrite (U1 Z)].
  Qed.
End ApiCt.

Lemma api_traced v cf cs prek prea okb lim sl enc mac :
  enc_spec_g v cs prek prea okb lim enc -> mac_spec_g v cs prek prea okb lim sl mac ->
  (forall i, (i < length cs)%nat -> nth i cs [] <> []) -> (forall n, (sl n <= n + 16)%nat) ->
  (forall k npub ad a c n tag, N.of_nat a < lim -> N.of_nat n < lim ->
    ct (calls_mac (v_inst v) a n) any (mac k npub ad (N.of_nat a) c (N.of_nat n) tag) (mac k npub ad (N.of_nat a) c (N.of_nat n) tag)) ->
  (forall k npub m n c, N.of_nat n < lim -> (0 < n)%nat ->
    ct (calls_enc (v_inst v) n) any (enc k npub m (N.of_nat n) c) (enc k npub m (N.of_nat n) c)) ->
  forall ex, impl_ok_if (v_inst v) cf cs ex (api_aead cf enc mac) ->
  (forall mm k npub ad a p q n, ex mm k npub ad a p q n -> N.of_nat a < 2 ^ 64 -> N.of_nat n < 2 ^ 64 -> room mm ad a ->
    locs okb mm /\ N.of_nat a < lim /\ N.of_nat n < lim /\ prek k /\ prek npub /\ prea ad a /\ prea q n /\ prea p n /\ room mm ad (sl a)) ->
  enc_traced cf cs ex (api_aead cf enc mac) (fun a n => calls_enc (v_inst v) n ++ calls_mac (v_inst v) a n) /\
  dec_traced cf cs ex (api_aead cf enc mac) (calls_mac (v_inst v)) (calls_enc (v_inst v)).
Proof. exact (fun He Hm => api_traced_I (v_inst v) cf cs prek prea okb lim sl enc mac He Hm (v_mac_macf v)). Qed.
