(* isap.c of the Keccak opt_64 and avx512 implementations computes ISAP_RK, ISAP_MAC and ISAP_ENC. Proofs only, apart from auxiliary notions. *)
From Verif Require Import Base Prog Poly SpecPerm Words KeccakProof RefPerm Mem Vocab Vocab2 MemProof RefLib Sponge RefProof RefAead SpecFacts.
From Verif Require Import Api ApiProof OptProof A128Proof KRound K64Perm K64PermProof KIsap.
From Verif Require Spec RefIsap.
Import Spec(xorp, xorz, inst, i_sz, i_rate, i_sH, i_sB, i_sE, i_sK, i_perm).
Open Scope N_scope.
Open Scope cm_scope.

(* ---------- blocks of any rate ---------- *)

Section Rate.
  Variable r : nat.
  Hypothesis Hr : (0 < r)%nat.

  Lemma padr_chunks x : let q := (length x / r)%nat in
    chunks r (Spec.pad r x) = chunks r (firstn (r * q) x) ++ [skipn (r * q) x ++ 0x80 :: repeat 0 (r - 1 - length (skipn (r * q) x))].
  Proof.
    cbv zeta. remember (length x / r)%nat as q eqn:Eq. revert x Eq. induction q as [|q IH]; intros x Eq.
    - rewrite Nat.mul_0_r. cbn [firstn skipn]. rewrite chunks_nil. cbn [app]. unfold Spec.pad.
      assert (length x < r)%nat by (apply Nat.div_small_iff; lia). rewrite Nat.mod_small by lia.
      apply chunks_short. rewrite app_length. cbn [length]. rewrite repeat_length. lia.
    - assert (r <= length x)%nat.
      { destruct (Nat.le_gt_cases r (length x)); auto. rewrite Nat.div_small in Eq by lia. discriminate. }
      destruct (split_at r x) as (h & t & -> & Lh); auto. rewrite app_length in Eq.
      rewrite pad_app by auto. rewrite chunks_app by auto.
      rewrite (IH t).
      + replace (r * S q)%nat with (length h + r * q)%nat by lia. rewrite firstn_app_2, chunks_app by auto.
        rewrite skipn_app. rewrite (skipn_all2 h) by lia. cbn [app]. do 2 f_equal.
        replace (length h + r * q - length h)%nat with (r * q)%nat by lia. reflexivity.
      + replace (length h + length t)%nat with (length t + 1 * r)%nat in Eq by lia. rewrite Nat.div_add in Eq by lia. lia.
  Qed.

  Lemma chunksr_S (x : list N) k : (r * S k <= length x)%nat ->
    chunks r (firstn (r * S k) x) = chunks r (firstn (r * k) x) ++ [firstn r (skipn (r * k) x)].
  Proof.
    intros H. revert x H. induction k as [|k IH]; intros x H.
    - rewrite Nat.mul_0_r, Nat.mul_1_r in *. change (firstn 0 x) with (@nil N). cbn [skipn].
      rewrite chunks_nil, chunks_short; auto. rewrite firstn_length. lia.
    - destruct (split_at r x) as (h & t & -> & Lh); [lia|]. rewrite app_length in H.
      replace (r * S (S k))%nat with (length h + r * S k)%nat by lia. rewrite firstn_app_2, chunks_app by auto.
      replace (r * S k)%nat with (length h + r * k)%nat at 2 by lia. rewrite firstn_app_2, chunks_app by auto.
      rewrite IH by lia. replace (r * S k)%nat with (length h + r * k)%nat by lia. rewrite skipn_app, (skipn_all2 h) by lia.
      replace (length h + r * k - length h)%nat with (r * k)%nat by lia. reflexivity.
  Qed.

  Variable p : list N -> list N.
  Notation ab := (fold_left (absorb1 p)).
  Lemma ab_last s x : let q := (length x / r)%nat in
    ab (chunks r (Spec.pad r x)) s = p (xorp (ab (chunks r (firstn (r * q) x)) s) (skipn (r * q) x ++ [0x80])).
  Proof.
    cbv zeta. rewrite padr_chunks. set (q := (length x / r)%nat). set (y := skipn (r * q) x).
    rewrite fold_left_app. cbn [fold_left]. unfold absorb1 at 1. f_equal.
    change (0x80 :: repeat 0 (r - 1 - length y)) with ([0x80] ++ repeat 0 (r - 1 - length y)).
    now rewrite app_assoc, xorp_zeros.
  Qed.
  Lemma ab_S s x k : (r * S k <= length x)%nat ->
    ab (chunks r (firstn (r * S k) x)) s = p (xorp (ab (chunks r (firstn (r * k) x)) s) (firstn r (skipn (r * k) x))).
  Proof. intros H. rewrite chunksr_S by auto. rewrite fold_left_app. reflexivity. Qed.
End Rate.

(* ---------- bytes and lanes ---------- *)

Lemma xor_at_0 s bs : xor_at s 0 bs = xorp s bs.
Proof. revert bs. induction s as [|x s IH]; intros [|b bs]; cbn [xor_at xorp]; auto. now rewrite IH. Qed.
Lemma xor_at_off s off bs : xor_at s off bs = xorp s (repeat 0 off ++ bs).
Proof.
  revert off. induction s as [|x s IH]; intros [|off]; auto.
  - change (repeat 0 0 ++ bs) with bs. apply xor_at_0.
  - cbn [xor_at repeat app xorp]. rewrite N.lxor_0_r, IH. reflexivity.
Qed.
Lemma xor_at_snoc s l b : xor_at (xorp s l) (length l) [b] = xorp s (l ++ [b]).
Proof.
  revert l. induction s as [|x s IH]; intros [|y l]; cbn [xorp app length xor_at]; auto.
  - destruct s; reflexivity.
  - now rewrite IH.
Qed.
Lemma firstn_xorp n s b : firstn n (xorp s b) = xorp (firstn n s) b.
Proof. revert n b. induction s as [|x s IH]; intros [|n] [|y b]; cbn [firstn xorp]; auto. now rewrite IH. Qed.
Lemma xorp_tail0 s b n : xorp s (b ++ repeat 0 n) = xorp s b.
Proof. apply xorp_zeros. Qed.

Lemma of_lanes_bytes bs : bytes bs -> Nat.even (length bs) = true -> of_lanes (map le_word (chunks 2 bs)) = bs.
Proof.
  induction bs as [|a|a b bs IH] using list_ind2; intros Hb He; auto; [discriminate|].
  change (a :: b :: bs) with ([a; b] ++ bs). rewrite chunks_app by (auto; lia). unfold of_lanes in *. cbn [map concat].
  inversion Hb as [|? ? Ha Hb']; subst. inversion Hb' as [|? ? Hb1 Hb2]; subst.
  rewrite IH by auto. f_equal. apply (word_le_le_word [a; b]); repeat constructor; auto.
Qed.
Lemma lanes_app a b : Nat.even (length a) = true -> map le_word (chunks 2 (a ++ b)) = map le_word (chunks 2 a) ++ map le_word (chunks 2 b).
Proof.
  induction a as [|x|x y a IH] using list_ind2; intros He; auto; [discriminate|].
  change ((x :: y :: a) ++ b) with ([x; y] ++ (a ++ b)). change (x :: y :: a) with ([x; y] ++ a).
  rewrite (chunks_app 2 [x; y] (a ++ b)), (chunks_app 2 [x; y] a) by (auto; lia). cbn [map app]. f_equal. apply IH. exact He.
Qed.
Lemma lanes_zero n : map le_word (chunks 2 (repeat 0 (2 * n))) = repeat 0 n.
Proof.
  induction n as [|n IH]; auto. replace (2 * S n)%nat with (2 + 2 * n)%nat by lia. rewrite repeat_app, lanes_app by reflexivity.
  rewrite IH. reflexivity.
Qed.
Lemma lanes_firstn n bs : firstn n (map le_word (chunks 2 bs)) = map le_word (chunks 2 (firstn (2 * n) bs)).
Proof.
  revert n. induction bs as [|a|a b bs IH] using list_ind2; intros n.
  - now rewrite !firstn_nil.
  - destruct n; [reflexivity|]. replace (firstn (2 * S n) [a]) with [a] by (symmetry; apply firstn_all2; cbn [length]; lia).
    apply (firstn_all2 (n := S n)). cbn [chunks chunks_fuel map length firstn skipn]. lia.
  - destruct n; [reflexivity|]. replace (2 * S n)%nat with (S (S (2 * n))) by lia. cbn [firstn].
    change (a :: b :: bs) with ([a; b] ++ bs). change (a :: b :: firstn (2 * n) bs) with ([a; b] ++ firstn (2 * n) bs).
    rewrite (chunks_app 2 [a; b] bs), (chunks_app 2 [a; b] (firstn _ _)) by (auto; lia). cbn [map firstn]. now rewrite IH.
Qed.
Lemma lanes_skipn n bs : skipn n (map le_word (chunks 2 bs)) = map le_word (chunks 2 (skipn (2 * n) bs)).
Proof.
  revert n. induction bs as [|a|a b bs IH] using list_ind2; intros n.
  - now rewrite !skipn_nil.
  - destruct n; [reflexivity|]. replace (skipn (2 * S n) [a]) with (@nil N) by (symmetry; apply skipn_all2; cbn [length]; lia).
    apply (skipn_all2 (n := S n)). cbn [chunks chunks_fuel map length firstn skipn]. lia.
  - destruct n; [reflexivity|]. replace (2 * S n)%nat with (S (S (2 * n))) by lia. cbn [skipn].
    change (a :: b :: bs) with ([a; b] ++ bs). rewrite (chunks_app 2 [a; b] bs) by (auto; lia). cbn [map skipn]. now rewrite IH.
Qed.
Lemma lanes_length n bs : length bs = (2 * n)%nat -> length (map le_word (chunks 2 bs)) = n.
Proof. intros H. rewrite map_length. apply (chunks_length_mult 2 n bs); lia. Qed.

Lemma pair_le a b : a < 256 -> N.lor a (N.shiftl b 8) = le_word [a; b].
Proof.
  intros Ha. rewrite !le_word_cons. change (le_word []) with 0. rewrite N.mul_0_r, N.add_0_r, N.shiftl_mul_pow2.
  change (2 ^ 8) with 256. assert (E : N.land a (b * 256) = 0).
  { apply N.bits_inj_0; intros i; rewrite N.land_spec. destruct (N.lt_ge_cases i 8) as [Hi|Hi].
    - change 256 with (2 ^ 8). rewrite N.mul_pow2_bits_low by auto. apply andb_false_r.
    - replace (N.testbit a i) with false; auto. symmetry. rewrite <- (N.mod_small a (2 ^ 8)) by exact Ha.
      now apply N.mod_pow2_bits_high. }
  rewrite <- N.lxor_lor, <- N.add_nocarry_lxor by exact E. lia.
Qed.

(* 16-bit accesses at any address on a machine that does not care about alignment *)
Lemma lax_load_lanes cf m p n bs : strict cf = false -> length bs = (2 * n)%nat -> has m p bs ->
  runs (RefIsap.load_lanes cf n p) m (map le_word (chunks 2 bs)) m.
Proof.
  intros Hs. revert p bs. induction n as [|n IH]; intros p bs Hl H; cbn [RefIsap.load_lanes].
  - destruct bs; [apply runs_ret|simpl in Hl; lia].
  - destruct bs as [|x [|y bs]]; try (simpl in Hl; lia).
    eapply runs_bind; [apply (runs_loadn cf [x; y])|].
    + intros i Hi. rewrite H by (simpl in *; lia). destruct i as [|[|i]]; auto. simpl in Hi; lia.
    + unfold aligned. now rewrite Hs.
    + eapply runs_bind; [apply (IH (padd p 2) bs); [simpl in Hl; lia|]|].
      * exact (has_skipn m p (x :: y :: bs) 2 H).
      * eapply runs_eq; [apply runs_ret| |reflexivity]. change (x :: y :: bs) with ([x; y] ++ bs). rewrite chunks_app by (auto; lia). reflexivity.
Qed.
Lemma lax_store_lanes cf ws : strict cf = false -> forall m p, room m p (2 * length ws) ->
  runs (RefIsap.store_lanes cf ws p) m tt (putp m p (of_lanes ws)).
Proof.
  intros Hs. induction ws as [|w ws IH]; intros m p H; unfold of_lanes; cbn [RefIsap.store_lanes map concat].
  - rewrite putp_nil. apply runs_ret.
  - cbn [length] in H.
    assert (Ll : length (concat (map (word_le 2) ws)) = (2 * length ws)%nat).
    { clear. induction ws as [|w ws IH]; auto. cbn [map concat]. rewrite app_length, word_le_length, IH. cbn [length]. lia. }
    assert (Hr : room m p 2) by (intros i Hi; apply H; lia).
    eapply runs_bind; [apply runs_storen; rewrite word_le_length; auto; unfold aligned; now rewrite Hs|].
    eapply runs_eq; [apply IH|reflexivity|].
    + apply room_putp; [now rewrite word_le_length|]. apply (room_sub m p (2 * S (length ws)) 2); auto. lia.
    + unfold of_lanes. rewrite <- putp_app_bytes; [reflexivity|]. rewrite app_length, word_le_length, Ll. intros i Hi. apply H. lia.
Qed.

(* Reading the next part of the text, part of the ciphertext being written already. *)
Lemma text_at (M : mem) mp c T ct n j : has M mp T -> room M c (length T) -> fwd_ok c mp (length T) -> length ct = length T ->
  (n + j <= length T)%nat -> has (putp M c (firstn n ct)) (padd mp (N.of_nat n)) (firstn j (skipn n T)).
Proof.
  intros HT Rc Hf Lct Hn. apply has_putp_disj.
  - intros i Hi. apply Rc. rewrite firstn_length in Hi. lia.
  - apply has_firstn. now apply has_skipn.
  - intros i i' Hi Hi'. rewrite firstn_length in Hi. rewrite padd_padd, <- Nat2N.inj_add. apply Hf.
    rewrite firstn_length, skipn_length in Hi'. lia.
Qed.

(* ---------- what the parts that differ must do ---------- *)

Section Ok.
  Variables (L need : nat) (okr : N -> Prop) (cf : cfg) (o : kops).
  Definition wfL (s : list N) : Prop := length s = L /\ bytes s.
  Record kops_ok (kpf : N -> list N -> list N) : Prop := {
    ko_L : (50 <= L)%nat;
    ko_need : (18 <= need)%nat;
    ko_init : forall m bs, bytes bs -> length bs = 50%nat ->
      exists s, runs (k_init o (map le_word (chunks 2 bs))) m s m /\ wfL s /\ firstn 50 s = bs;
    ko_perm : forall r s m, okr r -> wfL s -> runs (k_perm o r s) m (kpf r s) m;
    ko_kpf : forall r s, okr r -> wfL s -> wfL (kpf r s) /\ firstn 50 (kpf r s) = keccak_p (N.to_nat r) (firstn 50 s);
    ko_src : forall m p bs, bytes bs -> has m p bs -> length bs = 18%nat -> room m p need -> runs (k_load_src o cf p) m bs m;
    ko_m : forall m p bs, bytes bs -> has m p bs -> length bs = 18%nat -> runs (k_load_m o cf p) m bs m;
    ko_bit : forall s v, v < 256 -> k_bit o s v = xorp s [v];
    ko_dom : forall s, k_dom o s = xorp s (repeat 0 49 ++ [1]);
    ko_out : forall m s out outlen n, wfL s -> n = (if N.eqb outlen 34 then 34%nat else 16%nat) -> room m out n ->
      runs (k_out o cf s out outlen) m tt (putp m out (firstn n s));
    ko_store16 : forall m s p, wfL s -> room m p 16 -> runs (k_store16 o cf s p) m tt (putp m p (firstn 16 s));
    ko_load16 : forall m p bs, bytes bs -> has m p bs -> length bs = 16%nat -> runs (k_load16 o cf p) m bs m }.
End Ok.

Section KProof.
  Variables (v : variant) (R : krounds) (L need : nat) (okr : N -> Prop) (cf : cfg) (o : kops) (kpf : N -> list N -> list N).
  Notation I := (v_inst v).
  Hypothesis Ho : kops_ok L need okr cf o kpf.
  Hypothesis Hlax : strict cf = false.
  Hypothesis Hsz : i_sz I = 50%nat.
  Hypothesis Hrate : i_rate I = 18%nat.
  Hypothesis Hperm : i_perm I = keccak_p.
  Hypothesis HH : krH R = N.of_nat (i_sH I) /\ okr (krH R).
  Hypothesis HB : krB R = N.of_nat (i_sB I) /\ okr (krB R).
  Hypothesis HE : krE R = N.of_nat (i_sE I) /\ okr (krE R).
  Hypothesis HK : krK R = N.of_nat (i_sK I) /\ okr (krK R).
  Notation wfS := (wfL L).
  Notation pH := (kpf (krH R)).
  Notation pB := (kpf (krB R)).
  Notation pE := (kpf (krE R)).
  Notation pK := (kpf (krK R)).
  Notation ab p := (fold_left (absorb1 p)).

  Lemma wfS_perm r s : okr r -> wfS s -> wfS (kpf r s).
  Proof. intros Hr W. now apply (ko_kpf _ _ _ _ _ _ Ho). Qed.
  Lemma wfS_xorp s b : bytes b -> wfS s -> wfS (xorp s b).
  Proof. intros B [W1 W2]. split; [now rewrite xorp_length|now apply bytes_xorp]. Qed.
  Lemma wfS_ab r bs s : okr r -> Forall bytes bs -> wfS s -> wfS (ab (kpf r) bs s).
  Proof.
    intros Hr. revert s. induction bs as [|b bs IH]; intros s F W; cbn [fold_left]; auto. inversion F; subst.
    apply IH; auto. unfold absorb1. apply wfS_perm; auto. now apply wfS_xorp.
  Qed.
  Lemma r_permute_k r s m : okr r -> wfS s -> runs (permute o r s) m (kpf r s) m.
  Proof. intros Hr W. eapply runs_bind; [apply runs_emit|]. now apply (ko_perm _ _ _ _ _ _ Ho). Qed.

  (* what the specification says about the first 50 bytes *)
  Lemma view_ab bs s : Forall bytes bs -> wfS s -> firstn 50 (ab pH bs s) = Spec.absorb I (firstn 50 s) bs.
  Proof.
    unfold Spec.absorb. revert s. induction bs as [|b bs IH]; intros s F W; cbn [fold_left]; auto. inversion F; subst.
    assert (W1 : wfS (xorp s b)) by now apply wfS_xorp.
    rewrite IH; auto; [|apply wfS_perm; auto; apply HH]. f_equal. unfold absorb1.
    destruct (ko_kpf _ _ _ _ _ _ Ho (krH R) _ (proj2 HH) W1) as [_ E]. rewrite E, firstn_xorp, Hperm, (proj1 HH), Nat2N.id. reflexivity.
  Qed.
  Lemma view_perm r n s : okr r -> r = N.of_nat n -> wfS s -> firstn 50 (kpf r s) = i_perm I n (firstn 50 s).
  Proof. intros Hr E W. destruct (ko_kpf _ _ _ _ _ _ Ho r s Hr W) as [_ E1]. now rewrite E1, Hperm, E, Nat2N.id. Qed.

  (* bytes that must exist at the address of n bytes to be absorbed *)
  Definition slk (n : nat) : nat := if (n <? 18)%nat then n else Nat.max n (18 * (n / 18) + (need - 18)).
  Lemma slk_room m src n k : room m src (slk n) -> (18 * k + 18 <= n)%nat -> room m (padd src (N.of_nat (18 * k))) need.
  Proof.
    intros H Hk. apply (room_sub m src (slk n)); auto. unfold slk. destruct (Nat.ltb_spec n 18); [lia|].
    assert (k + 1 <= n / 18)%nat by (apply Nat.div_le_lower_bound; lia).
    pose proof (ko_need _ _ _ _ _ _ Ho). lia.
  Qed.

  Lemma r_absorb_mac_k m src x s : wfS s -> has m src x -> bytes x -> N.of_nat (length x) < 2 ^ 64 -> room m src (slk (length x)) ->
    runs (ABSORB_MAC o R cf s src (N.of_nat (length x))) m (ab pH (chunks 18 (Spec.pad 18 x)) s) m.
  Proof.
    intros W Hx Bx Lx Rx. unfold ABSORB_MAC.
    set (q := ((length x - 1) / 18)%nat).
    set (sk := fun k => ab pH (chunks 18 (firstn (18 * k) x)) s).
    assert (Bb : forall k, bytes (firstn 18 (skipn (18 * k) x))) by (intros; now apply bytes_firstn, bytes_skipn).
    assert (Wk : forall k, wfS (sk k)).
    { intros k. apply wfS_ab; auto; [apply HH|]. apply chunks_Forall. now apply bytes_firstn. }
    assert (Hld : forall k, (18 * k + 18 <= length x)%nat ->
      runs (k_load_src o cf (padd src (N.of_nat (18 * k)))) m (firstn 18 (skipn (18 * k) x)) m).
    { intros k Hk. apply (ko_src _ _ _ _ _ _ Ho); auto.
      - apply has_firstn. now apply has_skipn.
      - rewrite firstn_length, skipn_length. lia.
      - apply (slk_room m src (length x)); auto. }
    assert (HPH : forall s, wfS s -> runs (HX o R s) m (pH s) m) by (intros; apply r_permute_k; auto; apply HH).
    eapply runs_bind.
    { apply (runs_while (fun k => (sk k, N.of_nat (18 * k), N.of_nat (length x - 18 * k))) (fun _ => m) q)
        with (a1 := (sk q, N.of_nat (18 * q), N.of_nat (length x - 18 * q))) (m1 := m).
      - unfold q. lia.
      - intros k Hk. assert (Hk18 : (18 * k + 18 < length x)%nat) by (unfold q in Hk; lia). cbn [snd]. split; [lia|].
        unfold absorb_full.
        eapply runs_bind; [apply Hld; lia|]. rewrite xor_at_0.
        eapply runs_bind; [apply HPH; apply wfS_xorp; auto|].
        eapply runs_eq; [apply runs_ret| |reflexivity].
        unfold sk at 2. rewrite ab_S by lia. fold (sk k). rewrite u64_small, sub64_small by lia.
        repeat f_equal; lia.
      - cbn [snd]. unfold q. lia.
      - unfold sk. rewrite Nat.mul_0_r. change (firstn 0 x) with (@nil N). rewrite chunks_nil, Nat.sub_0_r. reflexivity.
      - reflexivity.
      - reflexivity.
      - reflexivity. }
    cbv beta iota. apply runs_if. rewrite ab_last by lia.
    destruct (N.eqb_spec (N.of_nat (length x - 18 * q)) 18) as [E|E].
    - eapply runs_bind; [apply Hld; lia|]. rewrite xor_at_0.
      eapply runs_bind; [apply HPH; apply wfS_xorp; auto|].
      unfold sk. rewrite <- ab_S by lia. fold (sk (S q)).
      replace (length x / 18)%nat with (S q) by (unfold q; lia).
      rewrite (skipn_all2 x) by lia. cbn [app]. fold (sk (S q)).
      rewrite xor_at_0. change (word_le 2 128) with ([0x80] ++ repeat 0 1). rewrite xorp_zeros.
      apply HPH. apply wfS_xorp; auto. repeat constructor.
    - assert (Hq : (18 * q <= length x < 18 * q + 18)%nat) by (unfold q in *; lia).
      replace (length x / 18)%nat with q by lia.
      set (y := skipn (18 * q) x).
      assert (Ly : length y = (length x - 18 * q)%nat) by (unfold y; rewrite skipn_length; lia).
      assert (By : bytes y) by now apply bytes_skipn.
      set (lane := y ++ [0x80]).
      assert (Ll : length lane = S (length y)) by (unfold lane; rewrite app_length; cbn [length]; lia).
      assert (Bl : bytes lane) by (apply bytes_app; split; auto; repeat constructor).
      eapply runs_bind.
      { apply (runs_for (fun k => (xorp (sk q) (firstn k lane), N.of_nat (18 * q + Nat.min k (length y)))) (fun _ => m))
          with (a1 := (xorp (sk q) lane, N.of_nat (18 * q + length y))) (m1 := m).
        - change (N.to_nat 18) with 18%nat. intros k Hk. rewrite <- Ly. rewrite Nat2N.id.
          assert (Step : forall b, (k < length lane)%nat -> b = nth k lane 0 ->
            xor_at (xorp (sk q) (firstn k lane)) k [b] = xorp (sk q) (firstn (S k) lane)).
          { intros b Hkl ->. rewrite (firstn_snoc lane k 0) by lia. rewrite <- xor_at_snoc. f_equal. rewrite firstn_length. lia. }
          apply runs_if. destruct (N.ltb_spec (N.of_nat k) (N.of_nat (length y))) as [Hc|Hc].
          + eapply runs_bind.
            * apply runs_load. replace (Nat.min k (length y)) with k by lia.
              rewrite (Nat2N.inj_add (18 * q) k), <- padd_padd. apply (has_skipn m src x (18 * q) Hx). fold y. lia.
            * eapply runs_eq; [apply runs_ret| |reflexivity]. fold y.
              rewrite Step; [|lia|unfold lane; now rewrite app_nth1 by lia]. rewrite u64_small by lia. do 2 f_equal; lia.
          + apply runs_if. destruct (N.eqb_spec (N.of_nat k) (N.of_nat (length y))) as [E'|E'].
            * eapply runs_eq; [apply runs_ret| |reflexivity]. rewrite Step; [do 2 f_equal; lia|lia|].
              unfold lane. rewrite app_nth2 by lia. replace (k - length y)%nat with 0%nat by lia. reflexivity.
            * eapply runs_eq; [apply runs_ret| |reflexivity]. rewrite !(firstn_all2 lane) by lia. do 2 f_equal; lia.
        - cbn [firstn Nat.min]. rewrite xorp_nil. f_equal. lia.
        - reflexivity.
        - change (N.to_nat 18) with 18%nat. rewrite (firstn_all2 lane) by lia. do 2 f_equal. lia.
        - reflexivity. }
      cbn [fst]. apply HPH. apply wfS_xorp; auto. apply Wk.
  Qed.
  Notation rkf := (fold_left (fun s b => pB (xorp s (Spec.first_bit b)))).
  Lemma bytes_fb b : bytes (Spec.first_bit b).
  Proof. destruct b; repeat constructor. Qed.
  Lemma wfS_rkf Y s : wfS s -> wfS (rkf Y s).
  Proof.
    revert s; induction Y as [|b Y IH]; intros s W; cbn [fold_left]; auto. apply IH, wfS_perm; [apply HB|].
    apply wfS_xorp; auto. apply bytes_fb.
  Qed.
  Lemma view_rkf Y s : wfS s -> firstn 50 (rkf Y s) = fold_left (fun s b => i_perm I (i_sB I) (xorp s (Spec.first_bit b))) Y (firstn 50 s).
  Proof.
    revert s; induction Y as [|b Y IH]; intros s W; cbn [fold_left]; auto.
    assert (W1 : wfS (xorp s (Spec.first_bit b))) by (apply wfS_xorp; auto; apply bytes_fb).
    rewrite IH by (apply wfS_perm; auto; apply HB). f_equal.
    rewrite (view_perm _ (i_sB I)) by (auto; apply HB). now rewrite firstn_xorp.
  Qed.

  Lemma rk_snoc K iv Y : length Y = 16%nat -> Spec.rk_absorb I (i_perm I (i_sK I) (Spec.zpad I (K ++ iv))) (Spec.msb_bits Y) =
    i_perm I (i_sK I) (xorp (fold_left (fun s b => i_perm I (i_sB I) (xorp s (Spec.first_bit b)))
      (firstn 127 (Spec.msb_bits Y)) (i_perm I (i_sK I) (Spec.zpad I (K ++ iv)))) (Spec.first_bit (nth 127 (Spec.msb_bits Y) false))).
  Proof.
    intros LY. set (bits := Spec.msb_bits Y).
    assert (Hb : length bits = 128%nat) by (unfold bits; rewrite msb_bits_length; lia).
    rewrite <- (firstn_skipn 127 bits) at 1. rewrite (skipn_cons_nth bits 127 false) by lia.
    rewrite (skipn_all2 bits) by lia. apply rk_absorb_snoc.
  Qed.

  Lemma zpad_lanes a b : length a = 16%nat -> length b = 8%nat ->
    map le_word (chunks 2 a) ++ map le_word (chunks 2 b) ++ repeat 0 13 = map le_word (chunks 2 (Spec.zpad I (a ++ b))).
  Proof.
    intros La Lb. unfold Spec.zpad. rewrite app_length, La, Lb, Hsz. change (50 - (16 + 8))%nat with (2 * 13)%nat.
    rewrite lanes_app by (rewrite app_length, La, Lb; reflexivity). rewrite lanes_app by (rewrite La; reflexivity).
    now rewrite lanes_zero, app_assoc.
  Qed.
  Lemma zpad_ok a b : length a = 16%nat -> length b = 8%nat -> bytes a -> bytes b ->
    bytes (Spec.zpad I (a ++ b)) /\ length (Spec.zpad I (a ++ b)) = 50%nat.
  Proof.
    intros La Lb Ba Bb. unfold Spec.zpad. rewrite !app_length, repeat_length, La, Lb, Hsz. split; [|reflexivity].
    rewrite !bytes_app. repeat split; auto. apply bytes_repeat. lia.
  Qed.
  Lemma r_init m bs : bytes bs -> length bs = 50%nat ->
    exists s, runs (init o (map le_word (chunks 2 bs))) m s m /\ wfS s /\ firstn 50 s = bs.
  Proof. exact (ko_init _ _ _ _ _ _ Ho m bs). Qed.

  Lemma fb_byte x j : j <= 7 -> [N.shiftl (N.land (N.shiftr x j) 1) 7] = Spec.first_bit (N.testbit x j) /\ N.shiftl (N.land (N.shiftr x j) 1) 7 < 256.
  Proof. intros Hj. rewrite top_bit by auto. unfold Spec.first_bit. destruct (N.testbit x j); split; auto; lia. Qed.

  Lemma r_rk m k ivp yp out outlen K iv Y n :
    has m k K -> has m ivp iv -> has m yp Y -> length K = 16%nat -> length iv = 8%nat -> length Y = 16%nat -> bytes K -> bytes iv ->
    n = (if N.eqb outlen 34 then 34%nat else 16%nat) -> room m out n ->
    runs (isap_rk o R cf k ivp yp 16 out outlen) m tt (putp m out (Spec.isap_rk I K iv Y n)) /\ length (Spec.isap_rk I K iv Y n) = n
    /\ bytes (Spec.isap_rk I K iv Y n).
  Proof.
    intros Hk Hi Hy LK Li LY BK Bi En Ro.
    destruct (zpad_ok K iv) as [Bz Lz]; auto.
    destruct (r_init m (Spec.zpad I (K ++ iv)) Bz Lz) as (si & Ri & Wi & Vi).
    set (s0 := pK si). assert (W0 : wfS s0) by (apply wfS_perm; auto; apply HK).
    set (bits := Spec.msb_bits Y).
    assert (Hb : length bits = 128%nat) by (unfold bits; rewrite msb_bits_length; lia).
    assert (Wj : forall j, wfS (rkf (firstn j bits) s0)) by (intros; now apply wfS_rkf).
    set (s1 := xorp (rkf (firstn 127 bits) s0) (Spec.first_bit (nth 127 bits false))).
    assert (W1 : wfS s1) by (apply wfS_xorp; auto; apply bytes_fb).
    assert (V : firstn 50 (pK s1) = Spec.rk_absorb I (i_perm I (i_sK I) (Spec.zpad I (K ++ iv))) bits).
    { unfold bits. rewrite rk_snoc by auto. rewrite (view_perm _ (i_sK I)) by (auto; apply HK). unfold s1. rewrite firstn_xorp, view_rkf by auto.
      unfold s0. rewrite (view_perm _ (i_sK I)) by (auto; apply HK). now rewrite Vi. }
    assert (Wf : wfS (pK s1)) by (apply wfS_perm; auto; apply HK).
    assert (En34 : (n <= 34)%nat) by (rewrite En; destruct (outlen =? 34); lia).
    assert (E : firstn n (pK s1) = Spec.isap_rk I K iv Y n).
    { unfold Spec.isap_rk. fold bits. rewrite <- V, firstn_firstn. f_equal. lia. }
    rewrite <- E. split; [|split; [rewrite firstn_length, (proj1 Wf); pose proof (ko_L _ _ _ _ _ _ Ho); lia|apply bytes_firstn, Wf]].
    unfold isap_rk.
    eapply runs_bind; [apply (lax_load_lanes cf m k 8 K); auto|].
    eapply runs_bind; [apply (lax_load_lanes cf m ivp 4 iv); auto|].
    rewrite zpad_lanes by auto. eapply runs_bind; [exact Ri|].
    eapply runs_bind; [apply r_permute_k; auto; apply HK|]. fold s0.
    eapply runs_bind.
    { apply (runs_for (fun i => rkf (firstn i bits) s0) (fun _ => m)) with (a1 := rkf (firstn 127 bits) s0) (m1 := m); try reflexivity.
      change (N.to_nat (sub64 (u64 (16 * 8)) 1)) with 127%nat. intros i Hi127.
      eapply runs_bind.
      { apply runs_load. replace (N.of_nat i / 8) with (N.of_nat (i / 8)) by lia. apply Hy. lia. }
      destruct (fb_byte (nth (i / 8) Y 0) (7 - N.of_nat i mod 8)) as [F1 F2]; [lia|].
      rewrite (ko_bit _ _ _ _ _ _ Ho) by exact F2. rewrite F1.
      eapply runs_eq; [apply r_permute_k; [apply HB|apply wfS_xorp; auto; apply bytes_fb]| |reflexivity].
      rewrite (firstn_snoc bits i false) by lia. rewrite fold_left_app. cbn [fold_left].
      unfold bits. rewrite nth_msb_bits by lia. reflexivity. }
    eapply runs_bind.
    { apply runs_load. change (sub64 16 1) with (N.of_nat 15). apply Hy. lia. }
    eapply runs_bind.
    { destruct (fb_byte (nth 15 Y 0) 0) as [F1 F2]; [lia|]. rewrite N.shiftr_0_r in F1, F2.
      rewrite (ko_bit _ _ _ _ _ _ Ho) by exact F2. rewrite F1.
      replace (N.testbit (nth 15 Y 0) 0) with (nth 127 bits false) by (unfold bits; rewrite nth_msb_bits by lia; reflexivity).
      fold s1. apply r_permute_k; auto. apply HK. }
    now apply (ko_out _ _ _ _ _ _ Ho).
  Qed.

  Definition csk : list (list N) := [Spec.iv_A I; Spec.iv_KA I; Spec.iv_KE I].
  Hypothesis Hivb : forall ty, ty < 4 -> bytes (Spec.iv I ty).
  Lemma csk_ivs m : consts_ok csk m ->
    has m RefIsap.ISAP_IV_A (Spec.iv_A I) /\ has m RefIsap.ISAP_IV_KA (Spec.iv_KA I) /\ has m RefIsap.ISAP_IV_KE (Spec.iv_KE I).
  Proof.
    intros H. repeat split; [apply (consts_has _ _ 0 H)|apply (consts_has _ _ 1 H)|apply (consts_has _ _ 2 H)]; cbn; lia.
  Qed.
  Lemma csk_ne i : (i < length csk)%nat -> nth i csk [] <> [].
  Proof. cbn [csk length]. intros H. destruct i as [|[|[|i]]]; try discriminate. lia. Qed.

  Lemma r_iv1 m i : has m RefIsap.ISAP_IV_A (Spec.iv_A I) -> (i < 4)%nat ->
    runs (iv1_pair (2 * N.of_nat i)) m (le_word (firstn 2 (skipn (2 * i) (Spec.iv_A I)))) m.
  Proof.
    intros H Hi. unfold iv1_pair.
    assert (Li : length (Spec.iv_A I) = 8%nat) by reflexivity.
    eapply runs_bind; [apply runs_load; replace (2 * N.of_nat i) with (N.of_nat (2 * i)) by lia; apply H; lia|].
    eapply runs_bind; [apply runs_load; replace (2 * N.of_nat i + 1) with (N.of_nat (2 * i + 1)) by lia; apply H; lia|].
    eapply runs_eq; [apply runs_ret| |reflexivity]. rewrite pair_le by (apply bytes_nth; apply Hivb; lia). f_equal.
    destruct i as [|[|[|[|i]]]]; [reflexivity..|lia].
  Qed.

  Lemma mac_k_ok : mac_spec_s v csk (fun _ => True) no_cond (2 ^ 64) slk (isap_mac o R cf).
  Proof.
    intros mm k npub ad c tag K Nn A C Hc _ [BK Hk] LK [BN Hn] LN [BA HA] [BC HC] La Lc Rt _ _ _ _ _ _ _ _ _ Ra Rc.
    destruct (csk_ivs mm Hc) as (I1 & I2 & I3).
    assert (Bi : bytes (Spec.iv_A I)) by (apply Hivb; lia).
    destruct (zpad_ok Nn (Spec.iv_A I)) as [Bz Lz]; auto.
    destruct (r_init mm (Spec.zpad I (Nn ++ Spec.iv_A I)) Bz Lz) as (si & Ri & Wi & Vi).
    unfold isap_mac.
    eapply runs_bind; [apply (lax_load_lanes cf mm npub 8 Nn); auto|].
    eapply runs_bind; [apply (r_iv1 mm 0); auto; lia|].
    eapply runs_bind; [apply (r_iv1 mm 1); auto; lia|].
    eapply runs_bind; [apply (r_iv1 mm 2); auto; lia|].
    eapply runs_bind; [apply (r_iv1 mm 3); auto; lia|].
    match goal with |- context [init o (_ ++ [?a; ?b; ?c; ?d] ++ _)] =>
      change [a; b; c; d] with (map le_word (chunks 2 (Spec.iv_A I))) end.
    rewrite zpad_lanes by auto.
    eapply runs_bind; [exact Ri|].
    eapply runs_bind; [apply r_permute_k; auto; apply HH|].
    set (s1 := pH si). assert (W1 : wfS s1) by (apply wfS_perm; auto; apply HH).
    assert (V1 : firstn 50 s1 = i_perm I (i_sH I) (Spec.zpad I (Nn ++ Spec.iv_A I))).
    { unfold s1. rewrite (view_perm _ (i_sH I)) by (auto; apply HH). now rewrite Vi. }
    assert (FA : forall X, bytes X -> Forall bytes (chunks 18 (Spec.pad 18 X))) by (intros; now apply chunks_Forall, RefProof.bytes_pad).
    eapply runs_bind; [apply r_absorb_mac_k; auto|].
    set (s2 := ab pH _ s1). assert (W2 : wfS s2) by (apply wfS_ab; auto; apply HH).
    assert (Bd : bytes (repeat 0 49 ++ [1])) by (apply bytes_app; split; [apply bytes_repeat; lia|repeat constructor]).
    rewrite (ko_dom _ _ _ _ _ _ Ho).
    assert (W2' : wfS (xorp s2 (repeat 0 49 ++ [1]))) by now apply wfS_xorp.
    eapply runs_bind; [apply r_absorb_mac_k; auto|].
    set (s := ab pH _ _). assert (W : wfS s) by (apply wfS_ab; auto; apply HH).
    set (S0 := Spec.absorb I (Spec.dom_sep I (Spec.absorb I (i_perm I (i_sH I) (Spec.zpad I (Nn ++ Spec.iv_A I)))
      (chunks 18 (Spec.pad 18 A)))) (chunks 18 (Spec.pad 18 C))).
    assert (V : firstn 50 s = S0).
    { unfold s. rewrite view_ab by auto. unfold S0. f_equal. unfold Spec.dom_sep. rewrite Hsz. change (50 - 1)%nat with 49%nat.
      rewrite firstn_xorp. f_equal. unfold s2. rewrite view_ab by auto. now rewrite V1. }
    pose proof (ko_L _ _ _ _ _ _ Ho) as HL.
    set (Y := firstn 16 s). assert (LY : length Y = 16%nat) by (unfold Y; rewrite firstn_length, (proj1 W); lia).
    set (ka := Spec.isap_rk I K (Spec.iv_KA I) Y 16).
    apply (runs_with_block _ _ _ _ _ (map Some ka)).
    set (M0 := mm ++ [uninit 16]). set (yp := P (length mm) 0).
    assert (R0 : room M0 yp 16).
    { apply room_of_le. unfold yp, M0. cbn [pb po]. rewrite blk_mid, uninit_length. lia. }
    eapply runs_bind; [now apply (ko_store16 _ _ _ _ _ _ Ho)|]. fold Y.
    assert (Put : forall b0 bs, length b0 = 16%nat -> length bs = 16%nat -> putp (mm ++ [b0]) yp bs = mm ++ [map Some bs]).
    { intros b0 bs L0 Ls. unfold yp, putp, put. cbn [pb po]. rewrite blk_mid, upd_mid.
      change (N.to_nat 0) with 0%nat. do 2 f_equal. apply splice_all. now rewrite map_length, L0. }
    unfold M0. rewrite Put by auto. set (M1 := mm ++ [map Some Y]).
    assert (Hy : has M1 yp Y) by (apply has_blk0, blk_mid).
    destruct (r_rk M1 k RefIsap.ISAP_IV_KA yp yp RefIsap.CRYPTO_KEYBYTES K (Spec.iv_KA I) Y 16) as (Rrk & Lka & Bka); auto.
    { now apply has_app. }
    { now apply has_app. }
    { apply Hivb. lia. }
    { apply room_of_le. unfold yp, M1. cbn [pb po]. rewrite blk_mid, map_length, LY. lia. }
    fold ka in Rrk, Lka, Bka.
    eapply runs_bind; [exact Rrk|]. unfold M1. rewrite Put by (rewrite ?map_length; auto).
    set (M2 := mm ++ [map Some ka]).
    assert (Hka : has M2 yp ka) by (apply has_blk0, blk_mid).
    eapply runs_bind; [apply (ko_load16 _ _ _ _ _ _ Ho _ _ ka); auto|].
    set (s3 := ka ++ skipn 16 s).
    assert (W3 : wfS s3).
    { split; [unfold s3; rewrite app_length, skipn_length, (proj1 W), Lka; lia|]. apply bytes_app. split; auto. apply bytes_skipn, W. }
    eapply runs_bind; [apply r_permute_k; auto; apply HH|].
    assert (W4 : wfS (pH s3)) by (apply wfS_perm; auto; apply HH).
    assert (E : firstn 16 (pH s3) = Spec.isap_mac I K Nn A C).
    { unfold Spec.isap_mac. rewrite Hrate. fold S0. cbv zeta.
      replace (firstn 16 S0) with Y by (rewrite <- V, firstn_firstn; reflexivity). fold ka.
      replace (ka ++ skipn 16 S0) with (firstn 50 s3).
      - rewrite <- (view_perm _ (i_sH I)) by (auto; apply HH). rewrite firstn_firstn. reflexivity.
      - unfold s3. rewrite firstn_app, Lka. rewrite (firstn_all2 ka) by lia. f_equal. rewrite <- V.
        rewrite firstn_skipn_comm. reflexivity. }
    rewrite <- E.
    eapply runs_eq; [apply (ko_store16 _ _ _ _ _ _ Ho); auto; now apply room_app|reflexivity|].
    unfold M2. apply putp_app. rewrite firstn_length, (proj1 W4). replace (Nat.min 16 L) with 16%nat by lia. exact Rt.
  Qed.

  (* ---------- encryption ---------- *)

  Lemma view_iter j s : wfS s -> firstn 50 (iter pE j s) = iter (i_perm I (i_sE I)) j (firstn 50 s) /\ wfS (iter pE j s).
  Proof.
    intros W. induction j as [|j [IH1 IH2]]; cbn [iter]; auto. split.
    - rewrite (view_perm _ (i_sE I)) by (auto; apply HE). now rewrite IH1.
    - apply wfS_perm; auto. apply HE.
  Qed.

  Lemma enc_k_ok : enc_spec_l v csk (fun _ => True) no_cond (2 ^ 64) (isap_enc o R cf).
  Proof.
    intros mm k npub mp c K Nn T Hc _ [BK Hk] LK [BN Hn] LN [BT HT] LT HT0 Rc _ _ _ Hf _ _ _ _.
    destruct (csk_ivs mm Hc) as (I1 & I2 & I3).
    assert (Bi : bytes (Spec.iv_KE I)) by (apply Hivb; lia).
    pose proof (ko_L _ _ _ _ _ _ Ho) as HL.
    set (RK := Spec.isap_rk I K (Spec.iv_KE I) Nn 34).
    set (blk1 := splice (uninit 50) 0 (map Some RK)).
    unfold isap_enc. apply (runs_with_block _ _ _ _ _ blk1).
    set (M0 := mm ++ [uninit 50]). set (sp := P (length mm) 0).
    assert (R0 : room M0 sp 34).
    { apply room_of_le. unfold sp, M0. cbn [pb po]. rewrite blk_mid, uninit_length. lia. }
    destruct (r_rk M0 k RefIsap.ISAP_IV_KE npub sp (50 - RefIsap.CRYPTO_NPUBBYTES) K (Spec.iv_KE I) Nn 34) as (Rrk & LRK & BRK); auto;
      try now apply has_app.
    fold RK in Rrk, LRK, BRK.
    eapply runs_bind; [exact Rrk|].
    assert (E1 : putp M0 sp RK = mm ++ [blk1]).
    { unfold M0, sp, putp, put. cbn [pb po]. rewrite blk_mid, upd_mid. reflexivity. }
    assert (Hs : has (putp M0 sp RK) sp RK) by (apply has_putp_same; now rewrite LRK).
    rewrite E1 in *. set (M1 := mm ++ [blk1]) in *.
    assert (F1 : forall q bs, has mm q bs -> has M1 q bs) by (intros; now apply has_app).
    eapply runs_bind; [apply (lax_load_lanes cf M1 sp 17 RK); auto|].
    eapply runs_bind; [apply (lax_load_lanes cf M1 npub 8 Nn); auto|].
    rewrite <- lanes_app by (rewrite LRK; reflexivity).
    destruct (r_init M1 (RK ++ Nn)) as (s0 & Ri & W0 & V0).
    { now apply bytes_app. }
    { rewrite app_length. lia. }
    eapply runs_bind; [exact Ri|].
    eapply runs_bind; [apply r_permute_k; auto; apply HE|].
    assert (Wi : forall j, wfS (iter pE j s0)) by (intros; now apply view_iter).
    change (pE s0) with (iter pE 1 s0).
    set (ct := Spec.isap_enc I K Nn T).
    assert (Lct : length ct = length T) by now apply v_enc_length.
    assert (Ct : forall i, (i < length T)%nat -> nth i ct 0 = N.lxor (nth i T 0) (nth (i mod 18) (iter pE (S (i / 18)) s0) 0)).
    { intros i Hi. unfold ct. rewrite v_enc_nth by auto. f_equal. unfold v_ks, ks_byte. rewrite Hrate, Hsz.
      change (50 - 16)%nat with 34%nat. fold RK. rewrite <- V0. destruct (view_iter (S (i / 18)) s0 W0) as [<- _].
      apply nth_firstn_lt. pose proof (Nat.mod_upper_bound i 18). lia. }
    assert (HT1 : has M1 mp T) by auto.
    assert (Rc1 : room M1 c (length T)) by now apply room_app.
    assert (Rk : forall n, (n <= length T)%nat -> room M1 c (length (firstn n ct))).
    { intros n Hnl i Hi. apply Rc1. rewrite firstn_length in Hi. lia. }
    assert (Lane : forall j, (18 * j + 18 <= length T)%nat ->
      runs (squeeze_lane o cf (iter pE (S j) s0) mp c (N.of_nat (18 * j)))
           (putp M1 c (firstn (18 * j) ct)) tt (putp M1 c (firstn (18 * S j) ct))).
    { intros j Hj. set (tb := firstn 18 (skipn (18 * j) T)).
      assert (Lb : length tb = 18%nat) by (unfold tb; rewrite firstn_length, skipn_length; lia).
      assert (Bb : bytes tb) by now apply bytes_firstn, bytes_skipn.
      unfold squeeze_lane.
      eapply runs_bind.
      { apply (ko_m _ _ _ _ _ _ Ho _ _ tb); auto. apply (text_at M1 mp c T ct (18 * j) 18); auto. }
      eapply runs_bind; [apply runs_emit|]. rewrite xor_at_0.
      assert (Ls : length (xorp (firstn 18 (iter pE (S j) s0)) tb) = 18%nat).
      { rewrite xorp_length, firstn_length, (proj1 (Wi (S j))). lia. }
      assert (E : firstn (18 * S j) ct = firstn (18 * j) ct ++ xorp (firstn 18 (iter pE (S j) s0)) tb).
      { apply (nth_ext_le _ _ 0).
        - rewrite app_length, !firstn_length, Ls. lia.
        - intros i Hi. rewrite firstn_length in Hi. rewrite nth_firstn_lt by lia.
          destruct (Nat.ltb_spec i (18 * j)) as [Hlt|Hge].
          + rewrite app_nth1 by (rewrite firstn_length; lia). now rewrite nth_firstn_lt.
          + rewrite app_nth2 by (rewrite firstn_length; lia). rewrite firstn_length.
            replace (Nat.min (18 * j) (length ct)) with (18 * j)%nat by lia.
            rewrite nth_xorp, firstn_length, (proj1 (Wi (S j))). replace (i - 18 * j <? Nat.min 18 L)%nat with true by lia.
            rewrite Ct by lia. unfold tb. rewrite !nth_firstn_lt by lia. rewrite nth_skipn_add. rewrite N.lxor_comm.
            replace (i / 18)%nat with j by lia. f_equal; f_equal; lia. }
      eapply runs_eq; [apply runs_stores_|reflexivity|].
      - apply room_putp; [apply Rk; lia|]. rewrite Ls. apply (room_sub M1 c (length T)); auto.
      - rewrite E. rewrite <- putp_app_bytes.
        + rewrite firstn_length. do 2 f_equal. lia.
        + rewrite <- E. apply Rk. lia. }
    set (q := ((length T - 1) / 18)%nat).
    eapply runs_bind.
    { apply (runs_while (fun j => (iter pE (S j) s0, N.of_nat (18 * j), N.of_nat (length T - 18 * j)))
               (fun j => putp M1 c (firstn (18 * j) ct)) q)
        with (a1 := (iter pE (S q) s0, N.of_nat (18 * q), N.of_nat (length T - 18 * q)))
             (m1 := putp M1 c (firstn (18 * q) ct)).
      - unfold q. lia.
      - intros j Hj. assert (Hj8 : (18 * j + 18 < length T)%nat) by (unfold q in Hj; lia).
        cbn [snd]. split; [lia|]. unfold enc_full.
        eapply runs_bind; [apply Lane; lia|].
        eapply runs_bind; [apply r_permute_k; [apply HE|apply Wi]|].
        eapply runs_eq; [apply runs_ret| |reflexivity].
        rewrite u64_small, sub64_small by lia. repeat f_equal; lia.
      - cbn [snd]. unfold q. lia.
      - rewrite Nat.sub_0_r. reflexivity.
      - rewrite Nat.mul_0_r. change (firstn 0 ct) with (@nil N). apply putp_nil.
      - reflexivity.
      - reflexivity. }
    cbv beta iota. apply runs_if.
    assert (Fin : forall n, (length T <= n)%nat -> putp M1 c (firstn n ct) = putp mm c ct ++ [blk1]).
    { intros n Hn'. rewrite firstn_all2 by lia. unfold M1. apply putp_app. now rewrite Lct. }
    destruct (N.eqb_spec (N.of_nat (length T - 18 * q)) 18) as [E|E].
    - eapply runs_eq; [apply Lane; lia|reflexivity|]. apply Fin. lia.
    - assert (Hq : (18 * q <= length T < 18 * q + 18)%nat) by (unfold q in *; lia).
      eapply runs_eq; [|reflexivity|apply (Fin (length T)); lia].
      eapply runs_bind; [|apply runs_ret].
      apply (runs_for (fun j => N.of_nat (18 * q + j)) (fun j => putp M1 c (firstn (18 * q + j) ct)))
        with (a1 := N.of_nat (length T)).
      + rewrite Nat2N.id. intros j Hj.
        eapply runs_bind.
        { apply runs_load. rewrite <- (padd_0 (padd mp _)). change 0 with (N.of_nat 0) at 1.
          apply (text_at M1 mp c T ct (18 * q + j) 1); auto; try lia. rewrite firstn_length, skipn_length. lia. }
        eapply runs_bind.
        { apply runs_store1. rewrite inside_putp by (apply Rk; lia). apply Rc1. lia. }
        eapply runs_eq; [apply runs_ret| |].
        * rewrite u64_small by lia. lia.
        * rewrite Nat.add_succ_r. rewrite (firstn_snoc ct (18 * q + j) 0) by lia.
          rewrite <- putp_app_bytes.
          -- rewrite firstn_length. f_equal; [f_equal; lia|]. f_equal.
             rewrite Ct by lia. rewrite N.lxor_comm, Nat2N.id. rewrite nth_firstn_lt, nth_skipn_add by lia.
             replace ((18 * q + j) / 18)%nat with q by lia. f_equal; f_equal; lia.
          -- rewrite <- firstn_snoc by lia. apply Rk. lia.
      + rewrite Nat.add_0_r. lia.
      + now rewrite Nat.add_0_r.
      + rewrite Nat2N.id. lia.
      + rewrite Nat2N.id. f_equal. f_equal. lia.
  Qed.
End KProof.
