(* The ARM implementations of the Keccak instances compute ISAP_RK, ISAP_MAC and ISAP_ENC. Proofs only, apart from auxiliary notions. *)
From Verif Require Import Base Prog Poly SpecPerm Words KeccakProof RefPerm Mem Vocab MemProof RefLib Sponge RefProof RefAead SpecFacts.
From Verif Require Import Api ApiProof OptProof KRound K64Perm K64PermProof KIsap KIsapProof K64Impl KArmPerm KArmPermProof KArm.
From Verif Require Spec RefIsap.
Import Spec(xorp, xorz, inst, i_sz, i_rate, i_sH, i_sB, i_sE, i_sK, i_perm).
Open Scope N_scope.
Open Scope cm_scope.

Lemma sub32_small a b : b <= a -> a < 2 ^ 32 -> sub32 a b = a - b.
Proof.
  intros H1 H2. unfold sub32. replace (a + 2 ^ 32 - b) with (a - b + 1 * 2 ^ 32) by lia.
  rewrite N.mod_add by lia. apply N.mod_small. lia.
Qed.

Lemma runs_rep_ n : forall j (f : N -> M unit) (mm : nat -> mem),
  (forall k, (k < n)%nat -> runs (f (j + N.of_nat k)) (mm k) tt (mm (S k))) -> runs (rep n j f) (mm 0%nat) tt (mm n).
Proof.
  induction n as [|n IH]; intros j f mm H; cbn [rep]; [apply runs_ret|].
  eapply runs_bind; [rewrite <- (N.add_0_r j); apply (H 0%nat); lia|].
  apply (IH (j + 1) f (fun k => mm (S k))). intros k Hk. replace (j + 1 + N.of_nat k) with (j + N.of_nat (S k)) by lia. apply H. lia.
Qed.
Lemma runs_rep n (f : N -> M unit) (mm : nat -> mem) m0 m1 :
  (forall k, (k < n)%nat -> runs (f (N.of_nat k)) (mm k) tt (mm (S k))) -> mm 0%nat = m0 -> mm n = m1 -> runs (rep n 0 f) m0 tt m1.
Proof. intros H <- <-. apply runs_rep_. intros k Hk. rewrite N.add_0_l. auto. Qed.

(* Writing in front of what has been written. *)
Lemma putp_cons m p x l : room m p (S (length l)) -> putp (putp m (padd p 1) l) p [x] = putp m p (x :: l).
Proof.
  intros H.
  assert (Hl : room m (padd p 1) (length l)) by (apply (room_sub m p (S (length l)) 1); auto; lia).
  assert (H1 : room m p (length [x])) by (intros i Hi; apply H; cbn [length] in Hi; lia).
  apply mem_ext_cellp; [now rewrite !putp_length|]. intros q.
  rewrite (cellp_putp (putp m (padd p 1) l)) by (now apply room_putp). rewrite !cellp_putp by (auto; exact H).
  unfold within, padd. cbn [pb po length].
  destruct (Nat.eqb_spec (pb q) (pb p)); cbn [andb]; auto.
  destruct (N.leb_spec (po p) (po q)), (N.ltb_spec (po q) (po p + N.of_nat 1)); cbn [andb].
  - replace (po q <? po p + N.of_nat (S (length l))) with true by lia.
    replace (N.to_nat (po q - po p)) with 0%nat by lia. reflexivity.
  - destruct (N.leb_spec (po p + 1) (po q)); [|lia]. cbn [andb].
    replace (po q <? po p + 1 + N.of_nat (length l)) with (po q <? po p + N.of_nat (S (length l))) by lia.
    destruct (po q <? _); auto. do 2 f_equal. replace (N.to_nat (po q - po p)) with (S (N.to_nat (po q - (po p + 1)))) by lia. reflexivity.
  - replace (po p + 1 <=? po q) with false by lia. reflexivity.
  - lia.
Qed.

(* The copy loop, from the last byte to the first. *)
Lemma r_copy m dst src bs n : n = N.of_nat (length bs) -> has m src bs -> room m dst (length bs) -> pb src <> pb dst ->
  runs (arm_copy dst src n) m tt (putp m dst bs).
Proof.
  intros -> Hs Hd Hne. unfold arm_copy.
  apply (runs_for (fun _ => tt) (fun k => putp m (padd dst (N.of_nat (length bs - k))) (skipn (length bs - k) bs))); auto.
  - rewrite Nat2N.id. intros k Hk. cbv zeta.
    set (j := (length bs - S k)%nat). replace (length bs - k)%nat with (S j) by lia.
    replace (N.of_nat (length bs) - 1 - N.of_nat k) with (N.of_nat j) by lia.
    assert (Hr : room m (padd dst (N.of_nat (S j))) (length (skipn (S j) bs))).
    { rewrite skipn_length. apply (room_sub m dst (length bs)); auto. lia. }
    eapply runs_bind.
    { apply runs_load. rewrite rd1_putp by auto. rewrite within_false_lt; [apply Hs; lia|]. left. exact Hne. }
    eapply runs_eq; [apply runs_store1; rewrite inside_putp by auto; apply Hd; lia|reflexivity|].
    rewrite (skipn_cons_nth bs j 0) by lia. replace (N.of_nat (S j)) with (N.of_nat j + 1) by lia. rewrite <- padd_padd.
    apply putp_cons. rewrite skipn_length. apply (room_sub m dst (length bs)); auto. lia.
  - rewrite Nat.sub_0_r, skipn_all. apply putp_nil.
  - rewrite Nat2N.id, Nat.sub_diag. change (N.of_nat 0) with 0. now rewrite padd_0.
Qed.

Lemma half_xor a b c d : a < 256 -> b < 256 -> c < 256 -> d < 256 ->
  word_le 2 (N.lxor (le_word [a; b]) (le_word [c; d])) = [N.lxor a c; N.lxor b d].
Proof.
  intros Ha Hb Hc Hd. rewrite word_le_xor.
  rewrite (word_le_le_word [a; b] 2), (word_le_le_word [c; d] 2) by (repeat constructor; auto). reflexivity.
Qed.

Lemma two_bytes (l : list N) n : (n + 2 <= length l)%nat -> firstn 2 (skipn n l) = [nth n l 0; nth (S n) l 0].
Proof.
  intros H. rewrite (skipn_cons_nth l n 0) by lia. rewrite (skipn_cons_nth l (S n) 0) by lia. reflexivity.
Qed.

Lemma al2 cf p n : aligned cf p 2 = true -> aligned cf (padd p (2 * n)) 2 = true.
Proof.
  unfold aligned. cbn [pb po padd]. destruct (strict cf); auto. cbn [negb orb]. intros H. apply N.eqb_eq in H. apply N.eqb_eq.
  replace (base cf (pb p) + (po p + 2 * n)) with (base cf (pb p) + po p + n * 2) by lia. now rewrite N.mod_add by lia.
Qed.

Definition four_ok (cf : cfg) (b : nat) : Prop := strict cf = true -> base cf b mod 4 = 0.
Lemma four_even cf b : four_ok cf b -> even_ok cf b.
Proof. intros H E. specialize (H E). lia. Qed.
Lemma four_al cf b n : four_ok cf b -> aligned cf (P b (4 * n)) 4 = true.
Proof.
  intros H. unfold aligned, four_ok in *. cbn [pb po]. destruct (strict cf); auto. cbn [negb orb]. specialize (H eq_refl). apply N.eqb_eq. lia.
Qed.
Lemma al2_state cf b n : four_ok cf b -> aligned cf (P b (2 * n)) 2 = true.
Proof.
  intros H. unfold aligned, four_ok in *. cbn [pb po]. destruct (strict cf); auto. cbn [negb orb]. specialize (H eq_refl). apply N.eqb_eq. lia.
Qed.

(* Text and associated data are read as halfwords when there is a full block. *)
Definition al2_long (cf : cfg) (p : ptr) (n : nat) : Prop := (18 <= n)%nat -> aligned cf p 2 = true.

Section ArmProof.
  Variables (v : variant) (A : armcode) (mid : nat -> prog) (scr : st -> list N) (cf : cfg).
  Hypothesis Hv : kv v.
  Hypothesis HA : arm_ok A mid.
  Hypothesis Hterm : forall i, (i < 20)%nat -> nth i KeccakF400RoundConstants 0 <> a_term A.
  Hypothesis Hscr : forall z, ascr_ok (scr z).
  Notation I := (v_inst v).
  Notation R := (k_rounds v).
  Notation okb := (four_ok cf).
  Notation S_ s := (map (@Some N) s).
  Notation state m := (P (length m) 0).
  Notation wf := (RefProof.wf I).
  Notation HL := (v_libok v cf0).
  Notation Hmc := (v_macok v).
  Notation pH := (i_perm I (i_sH I)).
  Notation pE := (i_perm I (i_sE I)).
  Notation ab p := (fold_left (absorb1 p)).

  Lemma sz50 : i_sz I = 50%nat. Proof. apply k_inst; auto. Qed.
  Lemma rate18 : i_rate I = 18%nat. Proof. apply k_inst; auto. Qed.
  Lemma perm_k : i_perm I = keccak_p. Proof. apply k_inst; auto. Qed.

  Definition okn (r : N) (n : nat) : Prop := r = N.of_nat n /\ (0 < n <= 20)%nat.
  Lemma okH : okn (krH R) (i_sH I). Proof. destruct Hv as [-> | ->]; split; cbn; reflexivity || lia. Qed.
  Lemma okB : okn (krB R) (i_sB I). Proof. destruct Hv as [-> | ->]; split; cbn; reflexivity || lia. Qed.
  Lemma okE : okn (krE R) (i_sE I). Proof. destruct Hv as [-> | ->]; split; cbn; reflexivity || lia. Qed.
  Lemma okK : okn (krK R) (i_sK I). Proof. destruct Hv as [-> | ->]; split; cbn; reflexivity || lia. Qed.
  Lemma maxr20 : v_maxr v = 20%nat. Proof. destruct Hv as [-> | ->]; reflexivity. Qed.

  Lemma wfp r n s : okn r n -> wf s -> wf (i_perm I n s).
  Proof. intros [_ Hn]. apply (wf_perm _ _ _ _ HL). rewrite maxr20. lia. Qed.
  Lemma wfx s b : bytes b -> wf s -> wf (xorp s b).
  Proof. exact (wf_xorp I s b). Qed.
  Lemma wfl s : wf s -> length s = 50%nat.
  Proof. intros [H _]. now rewrite H, sz50. Qed.

  (* ---------- the functions of the assembler files ---------- *)

  Lemma a_permute (m : mem) s (rest : mem) r n : okn r n -> okb (length m) -> wf s ->
    runs (arm_Permute A scr cf (state m) r) (m ++ S_ s :: rest) tt (m ++ S_ (i_perm I n s) :: rest).
  Proof.
    intros [-> Hn] Hb W. pose proof (wfl s W) as Ls. destruct W as [_ Bs]. rewrite perm_k. unfold arm_Permute.
    pose proof (four_al cf (length m) 0 Hb) as Ea. change (4 * 0) with 0 in Ea. rewrite Ea.
    set (M := m ++ S_ s :: rest).
    assert (Hblk : blk M (length m) = S_ s) by apply blk_mid.
    eapply runs_bind; [apply runs_emit|].
    eapply runs_bind; [apply (runs_load_lanes cf M (length m) (four_even _ _ Hb) 25 0 s); [lia|now apply has_blk0]|].
    intros t. destruct (arm_perm_ok A mid HA Hterm (scr (St M t)) n s Hn (Hscr _) Bs Ls) as (ws & E & Lw & C). rewrite E.
    assert (Hst : runs (RefIsap.store_lanes cf ws (state m)) M tt (m ++ S_ (keccak_p n s) :: rest)).
    { eapply runs_eq; [apply (runs_store_lanes cf (length m) (four_even _ _ Hb) ws M 0)|reflexivity|].
      - rewrite Hblk, map_length, Lw. lia.
      - rewrite C. unfold putp, put. cbn [pb po]. unfold M. rewrite blk_mid, upd_mid. do 2 f_equal. apply splice_all.
        destruct (keccak_p_bytes n s ltac:(lia) Bs Ls) as [_ Lk]. rewrite !map_length. lia. }
    exact (Hst t).
  Qed.

  Lemma a_init (m : mem) (rest : mem) x : okb (length m) -> length x = 50%nat ->
    runs (arm_Initialize cf (state m)) (m ++ x :: rest) tt (m ++ S_ (repeat 0 50) :: rest).
  Proof.
    intros Hb Lx. unfold arm_Initialize. set (M := m ++ x :: rest).
    assert (Hr : forall n, (n <= 50)%nat -> room M (state m) n).
    { intros n Hn. apply room_of_le. cbn [pb po]. unfold M. rewrite blk_mid. lia. }
    eapply runs_bind.
    { apply (runs_rep 12 _ (fun k => putp M (state m) (repeat 0 (4 * k)))) with (m1 := putp M (state m) (repeat 0 48));
        [|apply putp_nil|reflexivity].
      intros k Hk. eapply runs_eq; [apply runs_storen|reflexivity|].
      - apply room_putp; [rewrite repeat_length; apply Hr; lia|].
        change (length [0; 0; 0; 0]) with 4%nat. replace (4 * N.of_nat k) with (N.of_nat (4 * k)) by lia.
        apply (room_sub M (state m) 50); [apply Hr; lia|lia].
      - change (length [0; 0; 0; 0]) with 4%nat. unfold padd. cbn [pb po]. rewrite N.add_0_l. now apply four_al.
      - replace (repeat 0 (4 * S k)) with (repeat 0 (4 * k) ++ [0; 0; 0; 0]).
        + rewrite <- putp_app_bytes by (rewrite app_length, repeat_length; apply Hr; cbn [length]; lia).
          rewrite repeat_length. do 2 f_equal. lia.
        + change [0; 0; 0; 0] with (repeat 0 4). rewrite <- repeat_app. f_equal. lia. }
    eapply runs_eq; [apply runs_storen|reflexivity|].
    - apply room_putp; [rewrite repeat_length; apply Hr; lia|]. change 48 with (N.of_nat 48). apply (room_sub M (state m) 50); [apply Hr; lia|cbn; lia].
    - change (length [0; 0]) with 2%nat. unfold padd. cbn [pb po]. change (0 + 48) with (2 * 24). now apply al2_state.
    - change 48 with (N.of_nat (length (repeat 0 48))). rewrite putp_app_bytes by (apply Hr; cbn; lia).
      change (repeat 0 48 ++ [0; 0]) with (repeat 0 50).
      unfold putp, put. cbn [pb po]. unfold M. rewrite blk_mid, upd_mid. do 2 f_equal. apply splice_all. rewrite map_length, repeat_length. lia.
  Qed.

  Lemma a_add (m : mem) s (rest : mem) d bs o n off : off = N.of_nat o -> n = N.of_nat (length bs) ->
    has (m ++ S_ s :: rest) d bs -> pb d <> length m -> (o + length bs <= length s)%nat ->
    runs (arm_AddBytes (state m) d off n) (m ++ S_ s :: rest) tt (m ++ S_ (addat s o bs) :: rest).
  Proof.
    intros -> -> Hd Hne Hl. unfold arm_AddBytes.
    apply (runs_for (fun _ => tt) (fun k => m ++ S_ (addat s (o + (length bs - k)) (skipn (length bs - k) bs)) :: rest)); auto.
    - rewrite Nat2N.id. intros k Hk. cbv beta zeta.
      set (j := (length bs - S k)%nat). replace (length bs - k)%nat with (S j) by lia.
      replace (N.of_nat (length bs) - 1 - N.of_nat k) with (N.of_nat j) by lia.
      set (s1 := addat s (o + S j) (skipn (S j) bs)).
      assert (L1 : length s1 = length s) by apply addat_length.
      eapply runs_bind.
      { apply runs_load. transitivity (rd1 (upd_nth (m ++ S_ s :: rest) (length m) (S_ s1)) (padd d (N.of_nat j))).
        - now rewrite upd_mid.
        - rewrite rd1_upd_other by exact Hne. apply Hd. lia. }
      assert (E0 : padd (padd (state m) (N.of_nat o)) (N.of_nat j) = P (length m) (N.of_nat (o + j))).
      { unfold padd. cbn [pb po]. f_equal. lia. }
      rewrite E0. eapply runs_bind; [apply runs_load, (rd1_blk _ _ s1); [apply blk_mid|lia]|].
      eapply runs_eq; [apply runs_store, (wr1_blk _ _ s1); [apply blk_mid|lia]|reflexivity|].
      rewrite upd_mid. do 2 f_equal. f_equal. rewrite Nat2N.id. apply (nth_ext_le _ _ 0).
      + rewrite upd_nth_length, !addat_length. exact L1.
      + intros i Hi. rewrite upd_nth_length, L1 in Hi. rewrite nth_upd_nth, L1. unfold s1. rewrite !nth_addat.
        replace (i <? length s)%nat with true by lia. replace (o + j <? length s)%nat with true by lia.
        replace (o + S j <=? o + j)%nat with false by lia. rewrite N.lxor_0_r.
        destruct (Nat.eqb_spec i (o + j)) as [->|Hij].
        * replace (o + j <=? o + j)%nat with true by lia. rewrite Nat.sub_diag, (skipn_cons_nth bs j 0) by lia. cbn [nth]. apply N.lxor_comm.
        * f_equal. destruct (Nat.leb_spec (o + S j) i).
          -- replace (o + j <=? i)%nat with true by lia. rewrite !nth_skipn_add. f_equal. lia.
          -- replace (o + j <=? i)%nat with false by lia. reflexivity.
    - rewrite Nat.sub_0_r, skipn_all, addat_nil. reflexivity.
    - rewrite Nat2N.id, Nat.sub_diag, Nat.add_0_r. reflexivity.
  Qed.

  Lemma a_xor (m : mem) s (rest : mem) v0 o p : p = P (length m) (N.of_nat o) -> (o < length s)%nat ->
    runs (xor_byte p v0) (m ++ S_ s :: rest) tt (m ++ S_ (addat s o [v0]) :: rest).
  Proof.
    intros -> Ho. unfold xor_byte.
    eapply runs_bind; [apply runs_load, (rd1_blk _ _ s); [apply blk_mid|lia]|].
    eapply runs_eq; [apply runs_store, (wr1_blk _ _ s); [apply blk_mid|lia]|reflexivity|].
    rewrite upd_mid, Nat2N.id. do 3 f_equal. rewrite <- (app_nil_l [v0]), <- (addat_snoc s o [] v0 o) by (cbn [length]; lia).
    now rewrite addat_nil.
  Qed.

  Lemma a_over (m : mem) x (rest : mem) d bs o off n : off = N.of_nat o -> n = N.of_nat (length bs) ->
    has (m ++ x :: rest) d bs -> pb d <> length m -> (o + length bs <= length x)%nat ->
    runs (arm_OverwriteBytes (state m) d off n) (m ++ x :: rest) tt (m ++ splice x o (S_ bs) :: rest).
  Proof.
    intros -> -> Hd Hne Hl. unfold arm_OverwriteBytes.
    replace (padd (state m) (N.of_nat o)) with (P (length m) (N.of_nat o)) by (unfold padd; cbn [pb po]; f_equal; lia).
    eapply runs_eq; [apply r_copy with (bs := bs); auto| |]; auto.
    - apply room_block. rewrite blk_mid. lia.
    - unfold putp, put. cbn [pb po]. now rewrite blk_mid, upd_mid, Nat2N.id.
  Qed.

  Lemma a_extract (m : mem) s (rest : mem) d k n : n = N.of_nat k -> (k <= length s)%nat ->
    room (m ++ S_ s :: rest) d k -> pb d <> length m ->
    runs (arm_ExtractBytes (state m) d 0 n) (m ++ S_ s :: rest) tt (putp (m ++ S_ s :: rest) d (firstn k s)).
  Proof.
    intros -> Hk Hr Hne. unfold arm_ExtractBytes. rewrite padd_0.
    assert (Lf : length (firstn k s) = k) by (rewrite firstn_length; lia).
    apply r_copy; rewrite ?Lf; auto.
    change 0 with (N.of_nat 0). apply (has_blk _ _ s 0 k); [apply blk_mid|lia].
  Qed.

  (* ---------- isap_rk ---------- *)

  Notation rk_fold := (fold_left (fun s b => i_perm I (i_sB I) (xorp s (Spec.first_bit b)))).

  Lemma wfrk Y s : wf s -> wf (rk_fold Y s).
  Proof. exact (wf_rk_fold _ _ _ _ _ HL Hmc Y s). Qed.
  Lemma wfz x : bytes x -> (length x <= 50)%nat -> wf (Spec.zpad I x).
  Proof. intros B L. apply wf_zpad; auto. now rewrite sz50. Qed.
  Lemma zadd x y : length x = 16%nat -> length y = 8%nat -> addat (addat (repeat 0 50) 0 x) 16 y = Spec.zpad I (x ++ y).
  Proof. intros Lx Ly. rewrite <- sz50 at 1. exact (zpad_add _ _ _ Hmc x y Lx Ly). Qed.

  Lemma a_rk (m : mem) k ivp inp out kb ivb Y n outlen :
    okb (length m) -> outlen = N.of_nat n ->
    has m k kb -> has m ivp ivb -> has m inp Y ->
    length kb = 16%nat -> length ivb = 8%nat -> length Y = 16%nat -> bytes kb -> bytes ivb -> bytes Y ->
    room m out n -> (0 < n <= 50)%nat ->
    runs (isap_rk A scr R cf k ivp inp 16 out outlen) m tt (putp m out (Spec.isap_rk I kb ivb Y n)).
  Proof.
    intros Hokb -> Hk Hiv HY Lk Liv LY Bk Biv BY Hout Hn.
    unfold isap_rk.
    set (s0 := i_perm I (i_sK I) (Spec.zpad I (kb ++ ivb))).
    set (bits := Spec.msb_bits Y).
    assert (Hbits : length bits = 128%nat) by (unfold bits; rewrite msb_bits_length, LY; reflexivity).
    set (bl := nth 127 bits false).
    set (s1 := rk_fold (firstn 127 bits) s0).
    set (s2 := i_perm I (i_sK I) (xorp s1 (Spec.first_bit bl))).
    assert (Wz : wf (Spec.zpad I (kb ++ ivb))) by (apply wfz; [now apply bytes_app|rewrite app_length; lia]).
    assert (Ws0 : wf s0) by (apply (wfp _ _ _ okK Wz)).
    assert (Ws1 : wf s1) by now apply wfrk.
    assert (Wx : wf (xorp s1 (Spec.first_bit bl))) by (apply wfx; auto; apply bytes_fb).
    assert (Ws2 : wf s2) by (apply (wfp _ _ _ okK Wx)).
    assert (Es2 : Spec.isap_rk I kb ivb Y n = firstn n s2).
    { unfold Spec.isap_rk. fold s0. fold bits. rewrite <- (firstn_skipn 127 bits) at 1.
      replace (skipn 127 bits) with [bl].
      - now rewrite rk_absorb_snoc.
      - unfold bl. rewrite (skipn_cons_nth bits 127 false) by lia. rewrite skipn_all2 by lia. reflexivity. }
    rewrite Es2.
    assert (Hpb : forall p bs x, has m p bs -> length bs = S x -> pb p <> length m).
    { intros p bs x H1 H2. pose proof (has_pb _ _ _ H1 (nonnil _ _ H2)). lia. }
    apply (runs_with_block _ _ _ _ _ (S_ s2)).
    eapply runs_bind; [apply a_init; [exact Hokb|apply uninit_length]|].
    eapply runs_bind.
    { apply (a_add m (repeat 0 50) [] k kb 0); auto; try (rewrite repeat_length; lia).
      - now rewrite Lk.
      - now apply has_app.
      - now apply (Hpb _ _ 15%nat Hk). }
    eapply runs_bind.
    { apply (a_add m _ [] ivp ivb 16); auto; try (rewrite addat_length, repeat_length; lia).
      - now rewrite Liv.
      - now apply has_app.
      - now apply (Hpb _ _ 7%nat Hiv). }
    rewrite zadd by auto.
    eapply runs_bind; [apply (a_permute m _ [] _ _ okK); auto|]. fold s0.
    eapply runs_bind.
    { apply (runs_for (fun _ => tt) (fun j => m ++ [S_ (rk_fold (firstn j bits) s0)])) with (a1 := tt) (m1 := m ++ [S_ s1]); auto.
      change (N.to_nat (sub32 (u32 (16 * 8)) 1)) with 127%nat. intros j Hj. cbv zeta.
      assert (Wj : wf (rk_fold (firstn j bits) s0)) by now apply wfrk.
      eapply runs_bind.
      - apply runs_load, rd1_app. replace (N.of_nat j / 8) with (N.of_nat (j / 8)) by lia. apply HY. lia.
      - rewrite first_bit_val. rewrite <- nth_msb_bits by lia. fold bits.
        eapply runs_bind; [apply (a_xor m _ [] _ 0); [reflexivity|rewrite (wfl _ Wj); lia]|].
        rewrite addat_0. rewrite (firstn_snoc bits j false) by lia. rewrite fold_left_app. cbn [fold_left].
        apply (a_permute m _ [] _ _ okB); auto. apply (wfx _ (Spec.first_bit _)); [apply bytes_fb|exact Wj]. }
    eapply runs_bind.
    { apply runs_load, rd1_app. change (sub32 16 1) with (N.of_nat 15). apply HY. lia. }
    assert (Ebl : u8 (N.shiftl (N.land (nth 15 Y 0) 1) 7) = if bl then 0x80 else 0).
    { rewrite <- (N.shiftr_0_r (nth 15 Y 0)), first_bit_val. unfold bl, bits. rewrite nth_msb_bits by lia.
      reflexivity. }
    rewrite Ebl.
    eapply runs_bind; [apply (a_xor m s1 [] _ 0); [reflexivity|rewrite (wfl _ Ws1); lia]|].
    rewrite addat_0. change [if bl then 0x80 else 0] with (Spec.first_bit bl).
    eapply runs_bind; [apply (a_permute m _ [] _ _ okK); auto|]. fold s2.
    eapply runs_eq.
    - apply (a_extract m s2 [] out n); auto.
      + rewrite (wfl _ Ws2). lia.
      + now apply room_app.
      + apply Nat.lt_neq, (room_pb m out n Hout). lia.
    - reflexivity.
    - apply putp_app. rewrite firstn_length, (wfl _ Ws2). now replace (Nat.min n 50) with n by lia.
  Qed.

  (* ---------- isap_mac ---------- *)

  Lemma a_put (m : mem) s (rest : mem) o bs : putp (m ++ S_ s :: rest) (P (length m) (N.of_nat o)) bs = m ++ S_ (splice s o bs) :: rest.
  Proof. unfold putp, put. cbn [pb po]. now rewrite blk_mid, upd_mid, Nat2N.id, splice_map. Qed.

  Lemma a_xor_half (m : mem) s (rest : mem) src idx d0 d1 j : okb (length m) -> bytes s -> (2 * j + 2 <= length s)%nat ->
    d0 < 256 -> d1 < 256 -> has m (padd src (2 * u32 (idx + N.of_nat j))) [d0; d1] -> aligned cf (padd src (2 * u32 (idx + N.of_nat j))) 2 = true ->
    runs (xor_half cf (state m) src idx (N.of_nat j)) (m ++ S_ s :: rest) tt (m ++ S_ (addat s (2 * j) [d0; d1]) :: rest).
  Proof.
    intros Hb Bs Hl H0 H1 Hd Ha. unfold xor_half.
    assert (Ep : padd (state m) (2 * N.of_nat j) = P (length m) (N.of_nat (2 * j))) by (unfold padd; cbn [pb po]; f_equal; lia).
    assert (Eal : aligned cf (P (length m) (N.of_nat (2 * j))) 2 = true).
    { replace (N.of_nat (2 * j)) with (2 * N.of_nat j) by lia. now apply al2_state. }
    rewrite Ep. set (a := nth (2 * j) s 0). set (b := nth (S (2 * j)) s 0).
    assert (La : a < 256) by now apply bytes_nth. assert (Lb : b < 256) by now apply bytes_nth.
    eapply runs_bind.
    { apply (runs_loadn cf [a; b]); auto. unfold a, b. rewrite <- two_bytes by lia. apply has_blk; [apply blk_mid|lia]. }
    eapply runs_bind; [apply (runs_loadn cf [d0; d1]); auto; now apply has_app|].
    rewrite half_xor by auto.
    eapply runs_eq; [apply runs_storen; auto|reflexivity|].
    - apply room_block. rewrite blk_mid, map_length. cbn [length]. lia.
    - rewrite a_put. do 3 f_equal. apply (nth_ext_le _ _ 0).
      + rewrite splice_length, addat_length; auto; cbn [length]; lia.
      + intros i Hi. rewrite splice_length in Hi by (cbn [length]; lia). rewrite nth_addat. replace (i <? length s)%nat with true by lia.
        unfold splice. cbn [length].
        destruct (Nat.ltb_spec i (2 * j)) as [H|H].
        * rewrite app_nth1 by (rewrite firstn_length; lia). rewrite nth_firstn_lt by lia. replace (2 * j <=? i)%nat with false by lia.
          now rewrite N.lxor_0_r.
        * rewrite app_nth2 by (rewrite firstn_length; lia). rewrite firstn_length. replace (Nat.min (2 * j) (length s)) with (2 * j)%nat by lia.
          replace (2 * j <=? i)%nat with true by lia.
          destruct (i - 2 * j)%nat as [|[|i']] eqn:E.
          -- cbn [nth app]. unfold a. do 2 f_equal. lia.
          -- cbn [nth app]. unfold b. do 2 f_equal. lia.
          -- cbn [app nth]. rewrite nth_skipn_add. replace (match i' with O => 0 | S _ => 0 end) with 0 by now destruct i'. rewrite N.lxor_0_r. f_equal. lia.
  Qed.

  Lemma addat_grow s blk j : (2 * j + 2 <= length blk)%nat ->
    addat (addat s 0 (firstn (2 * j) blk)) (2 * j) [nth (2 * j) blk 0; nth (S (2 * j)) blk 0] = addat s 0 (firstn (2 * S j) blk).
  Proof.
    intros Hl. apply (nth_ext_le _ _ 0); [now rewrite !addat_length|]. intros i _. rewrite !nth_addat, addat_length.
    destruct (i <? length s)%nat; auto. change (0 <=? i)%nat with true. cbv iota. rewrite Nat.sub_0_r, N.lxor_assoc. f_equal.
    destruct (Nat.leb_spec (2 * j) i) as [H|H].
    - rewrite (nth_overflow (firstn (2 * j) blk)) by (rewrite firstn_length; lia). rewrite N.lxor_0_l.
      destruct (i - 2 * j)%nat as [|[|i']] eqn:E; cbn [nth].
      + rewrite nth_firstn_lt by lia. f_equal. lia.
      + rewrite nth_firstn_lt by lia. f_equal. lia.
      + rewrite (nth_overflow (firstn _ _)) by (rewrite firstn_length; lia). now destruct i'.
    - rewrite N.lxor_0_r. rewrite !nth_firstn_lt by lia. reflexivity.
  Qed.

  Lemma wfab bs s : Forall bytes bs -> wf s -> wf (ab pH bs s).
  Proof.
    revert s. induction bs as [|b bs IH]; intros s F W; cbn [fold_left]; auto. inversion F; subst.
    apply IH; auto. unfold absorb1. apply (wfp _ _ _ okH). now apply wfx.
  Qed.

  Lemma a_absorb (m : mem) s (rest : mem) src x : okb (length m) -> wf s -> has m src x -> bytes x -> N.of_nat (length x) < 2 ^ 32 ->
    al2_long cf src (length x) ->
    runs (absorb A scr R cf (state m) src (N.of_nat (length x))) (m ++ S_ s :: rest) tt
         (m ++ S_ (ab pH (chunks 18 (Spec.pad 18 x)) s) :: rest).
  Proof.
    intros Hb W Hx Bx Lx Hal. unfold absorb.
    set (q := (length x / 18)%nat).
    set (sk := fun k => ab pH (chunks 18 (firstn (18 * k) x)) s).
    assert (Wk : forall k, wf (sk k)).
    { intros k. apply wfab; auto. apply chunks_Forall. now apply bytes_firstn. }
    eapply runs_bind.
    { apply (runs_while (fun k => (N.of_nat (9 * k), N.of_nat (length x - 18 * k))) (fun k => m ++ S_ (sk k) :: rest) q)
        with (a1 := (N.of_nat (9 * q), N.of_nat (length x - 18 * q))) (m1 := m ++ S_ (sk q) :: rest).
      - unfold q. lia.
      - intros k Hk. assert (Hk18 : (18 * k + 18 <= length x)%nat) by (unfold q in Hk; lia). cbn [snd]. split; [lia|].
        cbv beta iota.
        set (bk := firstn 18 (skipn (18 * k) x)).
        assert (Lb : length bk = 18%nat) by (unfold bk; rewrite firstn_length, skipn_length; lia).
        assert (Bb : bytes bk) by now apply bytes_firstn, bytes_skipn.
        assert (Hbk : has m (padd src (N.of_nat (18 * k))) bk) by (apply has_firstn; now apply has_skipn).
        apply (runs_bind _ _ _ tt (m ++ S_ (xorp (sk k) bk) :: rest)).
        { apply (runs_rep 9 _ (fun j => m ++ S_ (addat (sk k) 0 (firstn (2 * j) bk)) :: rest)).
          - intros j Hj. rewrite <- addat_grow by lia.
            assert (Ei : 2 * u32 (N.of_nat (9 * k) + N.of_nat j) = N.of_nat (18 * k) + N.of_nat (2 * j)) by (rewrite u32_small; lia).
            apply a_xor_half; auto.
            + apply bytes_addat; [apply Wk|now apply bytes_firstn].
            + rewrite addat_length, (wfl _ (Wk k)). lia.
            + now apply bytes_nth.
            + now apply bytes_nth.
            + rewrite Ei, <- padd_padd, <- two_bytes by lia. apply has_firstn. now apply has_skipn.
            + apply al2, Hal. lia.
          - cbn [firstn Nat.mul]. change (2 * 0)%nat with 0%nat. cbn [firstn]. now rewrite addat_nil.
          - rewrite firstn_all2 by lia. reflexivity. }
        eapply runs_bind; [apply (a_permute m _ rest _ _ okH); auto; now apply wfx|].
        eapply runs_eq; [apply runs_ret| |].
        + rewrite u32_small, sub32_small by lia. f_equal; lia.
        + do 3 f_equal. unfold sk, bk. now rewrite ab_S by lia.
      - cbn [snd]. unfold q. lia.
      - rewrite Nat.sub_0_r. reflexivity.
      - unfold sk. rewrite Nat.mul_0_r. change (firstn 0 x) with (@nil N). now rewrite chunks_nil.
      - reflexivity.
      - reflexivity. }
    cbv beta iota zeta.
    set (y := skipn (18 * q) x).
    assert (Ly : length y = (length x - 18 * q)%nat) by (unfold y; rewrite skipn_length; lia).
    assert (Hy18 : (length y < 18)%nat) by (unfold q in *; lia).
    assert (By : bytes y) by now apply bytes_skipn.
    assert (Hy : has m (padd src (N.of_nat (18 * q))) y) by now apply has_skipn.
    rewrite <- Ly.
    eapply runs_bind.
    { apply (runs_for (fun _ => tt) (fun k => m ++ S_ (addat (sk q) 0 (firstn k y)) :: rest)) with (a1 := tt) (m1 := m ++ S_ (addat (sk q) 0 y) :: rest); auto.
      - rewrite Nat2N.id. intros k Hk.
        replace (u32 (u32 (N.of_nat (9 * q) * 2) + N.of_nat k)) with (N.of_nat (18 * q) + N.of_nat k) by (rewrite !u32_small; try lia; rewrite u32_small; lia).
        eapply runs_bind; [apply runs_load, rd1_app; rewrite <- padd_padd; apply Hy; lia|].
        rewrite (firstn_snoc y k 0) by lia.
        eapply runs_eq; [apply (a_xor m _ rest _ k); [unfold padd; cbn [pb po]; f_equal; lia|rewrite addat_length, (wfl _ (Wk q)); lia]|reflexivity|].
        do 3 f_equal. rewrite <- (addat_snoc (sk q) 0 (firstn k y) _ k) by (rewrite ?firstn_length, ?(wfl _ (Wk q)); lia).
        rewrite <- (app_nil_l [nth k y 0]), <- (addat_snoc _ k [] _ k) by (rewrite ?addat_length, ?(wfl _ (Wk q)); cbn [length]; lia).
        rewrite addat_nil. f_equal. f_equal. rewrite nth_addat, (wfl _ (Wk q)). replace (k <? 50)%nat with true by lia.
        change (0 <=? k)%nat with true. cbv iota. rewrite (nth_overflow (firstn k y)) by (rewrite firstn_length; lia). now rewrite N.lxor_0_r.
      - cbn [firstn]. now rewrite addat_nil.
      - now rewrite Nat2N.id, firstn_all. }
    rewrite addat_0.
    eapply runs_bind.
    { apply (a_xor m _ rest _ (length y)); [unfold padd; cbn [pb po]; f_equal; lia|]. rewrite xorp_length, (wfl _ (Wk q)). lia. }
    rewrite ab_last by lia. fold q. fold y. fold (sk q).
    replace (addat (xorp (sk q) y) (length y) [128]) with (xorp (sk q) (y ++ [0x80])).
    - apply (a_permute m _ rest _ _ okH); auto. apply wfx; [|apply Wk]. apply bytes_app. split; auto. repeat constructor.
    - rewrite <- xor_at_snoc, xor_at_off. apply (nth_ext_le _ _ 0); [now rewrite addat_length, xorp_length|].
      intros i Hi. rewrite nth_xorp, nth_addat. destruct (i <? _)%nat; auto. f_equal.
      destruct (Nat.leb_spec (length y) i).
      + rewrite app_nth2 by (rewrite repeat_length; lia). now rewrite repeat_length.
      + rewrite app_nth1 by (rewrite repeat_length; lia). apply nth_repeat.
  Qed.

  Lemma wf_pad_absorb s x : bytes x -> wf s -> wf (Spec.absorb I s (chunks 18 (Spec.pad 18 x))).
  Proof. rewrite <- rate18. exact (wf_absorb _ _ _ _ _ HL Hmc s x). Qed.

  Lemma arm_ivs m : consts_ok (csk v) m ->
    has m RefIsap.ISAP_IV_A (Spec.iv_A I) /\ has m RefIsap.ISAP_IV_KA (Spec.iv_KA I) /\ has m RefIsap.ISAP_IV_KE (Spec.iv_KE I).
  Proof.
    intros H. repeat split; [apply (consts_has _ _ 0 H)|apply (consts_has _ _ 1 H)|apply (consts_has _ _ 2 H)]; cbn; lia.
  Qed.

  Lemma arm_mac_ok : mac_spec_g v (csK v) (fun _ => True) (al2_long cf) okb (2 ^ 32) (fun n => n) (isap_mac A scr R cf).
  Proof.
    intros m k npub ad c tag kb nb AD C Hc Hokb [Bk Hk] Lk [Bn Hn] Ln [BA HAD] [BC HC] LA LC Htag _ _ _ _ _ _ _ Pa Pc _ _.
    rewrite k_consts in Hc by auto. destruct (arm_ivs m Hc) as (HivA & HivKA & HivKE).
    assert (Hb0 : okb (length m)) by (apply Hokb; lia).
    assert (BivA : bytes (Spec.iv_A I)) by (apply k_iv; auto; lia).
    assert (BivKA : bytes (Spec.iv_KA I)) by (apply k_iv; auto; lia).
    unfold isap_mac. rewrite !u32_small by lia.
    set (s0 := pH (Spec.zpad I (nb ++ Spec.iv_A I))).
    assert (Wz : wf (Spec.zpad I (nb ++ Spec.iv_A I))).
    { apply wfz; [now apply bytes_app|]. rewrite app_length. cbn [length Spec.iv_A Spec.iv]. lia. }
    assert (Ws0 : wf s0) by apply (wfp _ _ _ okH Wz).
    set (s1 := Spec.absorb I s0 (chunks 18 (Spec.pad 18 AD))).
    assert (Ws1 : wf s1) by now apply wf_pad_absorb.
    set (s2 := Spec.dom_sep I s1).
    assert (Es2 : s2 = addat s1 49 [1]).
    { unfold s2. rewrite (dom_sep_addat _ _ _ Hmc) by apply Ws1. now rewrite sz50. }
    assert (Ws2 : wf s2).
    { rewrite Es2. apply wf_addat; auto. repeat constructor. }
    set (s3 := Spec.absorb I s2 (chunks 18 (Spec.pad 18 C))).
    assert (Ws3 : wf s3) by now apply wf_pad_absorb.
    pose proof (wfl _ Ws3) as Ls3.
    set (y := firstn 16 s3).
    assert (Ly : length y = 16%nat) by (unfold y; rewrite firstn_length; lia).
    assert (By : bytes y) by (apply bytes_firstn, Ws3).
    set (ka := Spec.isap_rk I kb (Spec.iv_KA I) y 16).
    assert (Wka : bytes ka /\ length ka = 16%nat) by (apply (wf_rk _ _ _ _ _ HL Hmc); auto; rewrite ?sz50; lia).
    destruct Wka as [Bka Lka].
    assert (Ws4' : wf (ka ++ skipn 16 s3)).
    { split; [rewrite app_length, skipn_length, sz50; lia|]. apply bytes_app. split; auto. apply bytes_skipn, Ws3. }
    set (s4 := pH (ka ++ skipn 16 s3)).
    assert (Ws4 : wf s4) by apply (wfp _ _ _ okH Ws4').
    pose proof (wfl _ Ws4) as Ls4.
    assert (Etag : Spec.isap_mac I kb nb AD C = firstn 16 s4).
    { unfold Spec.isap_mac. rewrite rate18. reflexivity. }
    rewrite Etag.
    assert (Hpb : forall p bs x, has m p bs -> length bs = S x -> pb p <> length m).
    { intros p bs x H1 H2. pose proof (has_pb _ _ _ H1 (nonnil _ _ H2)). lia. }
    apply (runs_with_block _ _ _ _ _ (S_ s4)).
    eapply runs_bind; [apply a_init; [exact Hb0|apply uninit_length]|].
    eapply runs_bind.
    { apply (a_add m (repeat 0 50) [] npub nb 0); auto; try (rewrite repeat_length; lia).
      - now rewrite Ln.
      - now apply has_app.
      - now apply (Hpb _ _ 15%nat Hn). }
    eapply runs_bind.
    { apply (a_add m _ [] RefIsap.ISAP_IV_A (Spec.iv_A I) 16); auto; try (rewrite addat_length, repeat_length; cbn [length Spec.iv_A Spec.iv]; lia).
      - now apply has_app.
      - now apply (Hpb _ _ 7%nat HivA). }
    rewrite zadd by auto.
    eapply runs_bind; [apply (a_permute m _ [] _ _ okH); auto|]. fold s0.
    eapply runs_bind; [apply (a_absorb m s0 [] ad AD); auto|].
    change (ab pH (chunks 18 (Spec.pad 18 AD)) s0) with s1.
    eapply runs_bind; [apply (a_xor m s1 [] 1 49); [reflexivity|rewrite (wfl _ Ws1); lia]|].
    rewrite <- Es2.
    eapply runs_bind; [apply (a_absorb m s2 [] c C); auto|].
    change (ab pH (chunks 18 (Spec.pad 18 C)) s2) with s3.
    (* locals y and ka_star *)
    apply (runs_with_block _ _ _ _ _ (S_ y)). rewrite <- app_assoc. cbn [app].
    apply (runs_with_block _ _ _ _ _ (S_ ka)). rewrite <- app_assoc. cbn [app].
    rewrite !app_length. cbn [length].
    assert (Hput : forall (x1 x2 : block) i v, length x2 = length v ->
      putp (m ++ [x1; x2] ++ i) (P (length m + 1) 0) v = m ++ [x1; S_ v] ++ i).
    { intros x1 x2 i w Hl. unfold putp, put. cbn [pb po]. rewrite blk_app2. cbn [app blk nth].
      rewrite upd_app2. cbn [upd_nth]. rewrite splice_all by now rewrite map_length. reflexivity. }
    eapply runs_bind.
    { eapply runs_eq; [apply (a_extract m s3 [uninit 16; uninit 16] (P (length m + 1) 0) 16); auto; try lia| |].
      - apply room_of_le. cbn [pb po]. rewrite blk_app2. cbn [blk nth]. rewrite uninit_length. lia.
      - cbn [pb]. lia.
      - reflexivity.
      - fold y. apply (Hput (S_ s3) (uninit 16) [uninit 16] y). now rewrite uninit_length, Ly. }
    cbn [app].
    eapply runs_bind.
    { apply (a_rk (m ++ [S_ s3; S_ y; uninit 16]) k RefIsap.ISAP_IV_KA (P (length m + 1) 0)
               (P (length m + 2) 0) kb (Spec.iv_KA I) y 16); auto.
      - apply Hokb. rewrite app_length. lia.
      - now apply has_app.
      - now apply has_app.
      - apply has_blk0. rewrite blk_app2. reflexivity.
      - apply room_of_le. cbn [pb po]. rewrite blk_app2. cbn [blk nth]. rewrite uninit_length. lia.
      - lia. }
    fold ka.
    replace (putp (m ++ [S_ s3; S_ y; uninit 16]) (P (length m + 2) 0) ka) with (m ++ S_ s3 :: [S_ y; S_ ka]).
    2:{ unfold putp, put. cbn [pb po]. rewrite blk_app2. cbn [blk nth]. rewrite upd_app2. cbn [upd_nth].
        rewrite splice_all by now rewrite map_length, uninit_length, Lka. reflexivity. }
    eapply runs_bind.
    { apply (a_over m (S_ s3) [S_ y; S_ ka] (P (length m + 2) 0) ka 0); auto; try lia.
      - now rewrite Lka.
      - apply has_blk0. rewrite blk_app2. reflexivity.
      - cbn [pb]. lia.
      - rewrite map_length. lia. }
    rewrite splice_map, splice_app, Lka.
    eapply runs_bind; [apply (a_permute m _ [S_ y; S_ ka] _ _ okH); auto|]. fold s4.
    eapply runs_eq.
    - apply (a_extract m s4 [S_ y; S_ ka] tag 16); auto; try lia.
      + now apply room_app.
      + apply Nat.lt_neq, (room_pb m tag 16%nat Htag). lia.
    - reflexivity.
    - rewrite putp_app by (rewrite firstn_length, Ls4; exact Htag).
      rewrite <- !app_assoc. reflexivity.
  Qed.

  (* ---------- isap_enc ---------- *)

  Let pE := i_perm I (i_sE I).

  Lemma wfi s j : wf s -> wf (iter pE j s).
  Proof. induction j as [|j IH]; intros W; cbn [iter]; auto. apply (wfp _ _ _ okE). auto. Qed.

  Lemma a_enc_half (m : mem) s (rest : mem) mp c idx d0 d1 j : okb (length m) -> bytes s -> (2 * j + 2 <= length s)%nat ->
    d0 < 256 -> d1 < 256 -> has m (padd mp (2 * u32 (idx + N.of_nat j))) [d0; d1] -> aligned cf (padd mp (2 * u32 (idx + N.of_nat j))) 2 = true ->
    room m (padd c (2 * u32 (idx + N.of_nat j))) 2 -> aligned cf (padd c (2 * u32 (idx + N.of_nat j))) 2 = true ->
    runs (enc_half cf (state m) mp c idx (N.of_nat j)) (m ++ S_ s :: rest) tt
         (putp m (padd c (2 * u32 (idx + N.of_nat j))) [N.lxor d0 (nth (2 * j) s 0); N.lxor d1 (nth (S (2 * j)) s 0)] ++ S_ s :: rest).
  Proof.
    intros Hb Bs Hl H0 H1 Hd Ha Hr Hac. unfold enc_half.
    assert (Ep : padd (state m) (2 * N.of_nat j) = P (length m) (N.of_nat (2 * j))) by (unfold padd; cbn [pb po]; f_equal; lia).
    assert (Eal : aligned cf (P (length m) (N.of_nat (2 * j))) 2 = true).
    { replace (N.of_nat (2 * j)) with (2 * N.of_nat j) by lia. now apply al2_state. }
    rewrite Ep. set (a := nth (2 * j) s 0). set (b := nth (S (2 * j)) s 0).
    assert (La : a < 256) by now apply bytes_nth. assert (Lb : b < 256) by now apply bytes_nth.
    eapply runs_bind; [apply (runs_loadn cf [d0; d1]); auto; now apply has_app|].
    eapply runs_bind.
    { apply (runs_loadn cf [a; b]); auto. unfold a, b. rewrite <- two_bytes by lia. apply has_blk; [apply blk_mid|lia]. }
    rewrite half_xor by auto.
    eapply runs_eq; [apply runs_storen; auto; now apply room_app|reflexivity|].
    now apply putp_app.
  Qed.

  Lemma arm_enc_ok : enc_spec_g v (csK v) (fun _ => True) (al2_long cf) okb (2 ^ 32) (isap_enc A scr R cf).
  Proof.
    intros m k npub mp c kb nb T Hc Hokb [Bk Hk] Lk [Bn Hn] Ln [BT HT] LT HT0 Rc _ _ _ Hf _ _ Pm Pc.
    rewrite k_consts in Hc by auto. destruct (arm_ivs m Hc) as (HivA & HivKA & HivKE).
    assert (Hb0 : okb (length m)) by (apply Hokb; lia).
    assert (BivKE : bytes (Spec.iv_KE I)) by (apply k_iv; auto; lia).
    assert (Wk : bytes (Spec.isap_rk I kb (Spec.iv_KE I) nb 34) /\ length (Spec.isap_rk I kb (Spec.iv_KE I) nb 34) = 34%nat)
      by (apply (wf_rk _ _ _ _ _ HL Hmc); auto; rewrite ?sz50; lia).
    set (RK := Spec.isap_rk I kb (Spec.iv_KE I) nb 34) in *. destruct Wk as [BRK LRK].
    set (s0 := RK ++ nb).
    assert (W0 : wf s0).
    { split; [unfold s0; rewrite app_length, sz50; lia|]. apply bytes_app. now split. }
    set (ct := Spec.isap_enc I kb nb T).
    assert (Lct : length ct = length T) by now apply v_enc_length.
    assert (Ct : forall i, (i < length T)%nat -> nth i ct 0 = N.lxor (nth i T 0) (nth (i mod 18) (iter pE (S (i / 18)) s0) 0)).
    { intros i Hi. unfold ct. rewrite v_enc_nth by auto. f_equal. unfold v_ks, ks_byte. rewrite rate18, sz50. reflexivity. }
    assert (Rk : forall n, room m c (length (firstn n ct))).
    { intros n i Hi. apply Rc. rewrite firstn_length in Hi. lia. }
    unfold isap_enc. rewrite u32_small by lia.
    set (q := (length T / 18)%nat).
    set (fin := if (length T - 18 * q =? 0)%nat then iter pE q s0 else iter pE (S q) s0).
    apply (runs_with_block _ _ _ _ _ (S_ fin)).
    eapply runs_bind.
    { apply (a_rk (m ++ [uninit 50]) k RefIsap.ISAP_IV_KE npub (P (length m) 0) kb (Spec.iv_KE I) nb 34); auto; try lia; try now apply has_app.
      - apply Hokb. rewrite app_length. lia.
      - apply room_of_le. cbn [pb po]. rewrite blk_mid, uninit_length. lia. }
    fold RK.
    replace (putp (m ++ [uninit 50]) (P (length m) 0) RK) with (m ++ [S_ RK ++ uninit 16]).
    2:{ unfold putp, put. cbn [pb po]. rewrite blk_mid, upd_mid. change (N.to_nat 0) with 0%nat.
        rewrite splice_app, map_length, LRK. reflexivity. }
    apply (runs_bind _ _ _ tt (m ++ [S_ s0])).
    { eapply runs_eq; [apply (a_over m (S_ RK ++ uninit 16) [] npub nb 34); auto; try lia| |].
      - now rewrite Ln.
      - now apply has_app.
      - pose proof (has_pb _ _ _ Hn (nonnil _ _ Ln)). lia.
      - rewrite app_length, map_length, uninit_length. lia.
      - reflexivity.
      - do 2 f_equal. unfold splice. rewrite firstn_app, map_length, LRK, Nat.sub_diag, firstn_O.
        rewrite firstn_all2 by (rewrite map_length; lia).
        rewrite skipn_all2 by (rewrite app_length, !map_length, uninit_length; lia).
        rewrite !app_nil_r. unfold s0. now rewrite map_app. }
    eapply runs_bind.
    { apply (runs_while (fun j => (N.of_nat (9 * j), N.of_nat (length T - 18 * j)))
               (fun j => putp m c (firstn (18 * j) ct) ++ [S_ (iter pE j s0)]) q)
        with (a1 := (N.of_nat (9 * q), N.of_nat (length T - 18 * q)))
             (m1 := putp m c (firstn (18 * q) ct) ++ [S_ (iter pE q s0)]).
      - unfold q. lia.
      - intros j Hj. assert (Hj18 : (18 * j + 18 <= length T)%nat) by (unfold q in Hj; lia). cbn [snd]. split; [lia|].
        cbv beta iota.
        assert (Lp : forall n, length (putp m c (firstn n ct)) = length m) by (intros; apply putp_length).
        eapply runs_bind.
        { rewrite <- (Lp (18 * j)%nat). apply (a_permute _ _ [] _ _ okE); [now rewrite Lp|now apply wfi]. }
        change (i_perm I (i_sE I) (iter pE j s0)) with (iter pE (S j) s0).
        set (sj := iter pE (S j) s0). assert (Wj : wf sj) by now apply wfi.
        apply (runs_bind _ _ _ tt (putp m c (firstn (18 * S j) ct) ++ [S_ sj])).
        { apply (runs_rep 9 _ (fun t => putp m c (firstn (18 * j + 2 * t) ct) ++ [S_ sj])).
          - intros t Ht.
            assert (Ei : 2 * u32 (N.of_nat (9 * j) + N.of_nat t) = N.of_nat (18 * j + 2 * t)) by (rewrite u32_small; lia).
            rewrite <- (Lp (18 * j + 2 * t)%nat).
            set (n := (18 * j + 2 * t)%nat) in *.
            assert (Hn' : (n + 2 <= length T)%nat) by (unfold n; lia).
            eapply runs_eq; [apply (a_enc_half _ sj [] mp c _ (nth n T 0) (nth (S n) T 0) t)|reflexivity|].
            + now rewrite Lp.
            + apply Wj.
            + rewrite (wfl _ Wj). lia.
            + now apply bytes_nth.
            + now apply bytes_nth.
            + rewrite Ei, <- two_bytes by lia. now apply text_at.
            + apply al2, Pm. lia.
            + rewrite Ei. apply room_putp; [apply Rk|]. apply (room_sub m c (length T)); auto.
            + apply al2, Pc. lia.
            + rewrite Ei. f_equal. replace (18 * j + 2 * S t)%nat with (S (S n)) by (unfold n; lia).
              rewrite (firstn_snoc ct (S n) 0), (firstn_snoc ct n 0) by lia. rewrite <- app_assoc. cbn [app].
              rewrite <- putp_app_bytes.
              * rewrite firstn_length. replace (Nat.min n (length ct)) with n by lia. do 3 f_equal.
                -- rewrite Ct by lia. replace (n / 18)%nat with j by (unfold n; lia). fold sj. do 2 f_equal. unfold n. lia.
                -- f_equal. rewrite Ct by lia. replace (S n / 18)%nat with j by (unfold n; lia). fold sj. do 2 f_equal. unfold n. lia.
              * intros i Hi. apply Rc. rewrite app_length, firstn_length in Hi. cbn [length] in Hi. lia.
          - rewrite Nat.mul_0_r, Nat.add_0_r. reflexivity.
          - do 3 f_equal. lia. }
        eapply runs_eq; [apply runs_ret| |reflexivity].
        rewrite u32_small, sub32_small by lia. f_equal; lia.
      - cbn [snd]. unfold q. lia.
      - rewrite Nat.sub_0_r. reflexivity.
      - rewrite Nat.mul_0_r. change (firstn 0 ct) with (@nil N). now rewrite putp_nil.
      - reflexivity.
      - reflexivity. }
    cbv beta iota.
    assert (Hq : (18 * q <= length T < 18 * q + 18)%nat) by (unfold q; lia).
    set (mq := putp m c (firstn (18 * q) ct)).
    assert (Lmq : length mq = length m) by apply putp_length.
    unfold if_. apply runs_if. destruct (N.ltb_spec 0 (N.of_nat (length T - 18 * q))) as [H|H].
    - unfold fin. replace (length T - 18 * q =? 0)%nat with false by lia.
      set (sq := iter pE (S q) s0). assert (Wq : wf sq) by now apply wfi.
      eapply runs_bind.
      { rewrite <- Lmq. apply (a_permute mq _ [] _ _ okE); [now rewrite Lmq|now apply wfi]. }
      change (i_perm I (i_sE I) (iter pE q s0)) with sq. cbv zeta.
      apply (runs_for (fun _ => tt) (fun t => putp m c (firstn (18 * q + t) ct) ++ [S_ sq])) with (a1 := tt); auto.
      + rewrite Nat2N.id. intros t Ht.
        replace (u32 (u32 (N.of_nat (9 * q) * 2) + N.of_nat t)) with (N.of_nat (18 * q + t)) by (rewrite !u32_small; try lia; rewrite u32_small; lia).
        set (n := (18 * q + t)%nat) in *. assert (Hn' : (n < length T)%nat) by (unfold n; lia).
        eapply runs_bind.
        { apply runs_load, rd1_app. rewrite <- (padd_0 (padd mp _)). change 0 with (N.of_nat 0) at 1.
          apply (text_at m mp c T ct n 1); auto; try lia. rewrite firstn_length, skipn_length. lia. }
        eapply runs_bind.
        { apply runs_load. replace (padd (P (length m) 0) (N.of_nat t)) with (P (length (putp m c (firstn n ct))) (N.of_nat t))
            by (rewrite putp_length; unfold padd; cbn [pb po]; f_equal; lia).
          apply (rd1_blk _ _ sq); [apply blk_mid|]. rewrite (wfl _ Wq). lia. }
        eapply runs_eq; [apply runs_store1|reflexivity|].
        * apply inside_app. rewrite inside_putp by apply Rk. apply Rc. lia.
        * assert (Hin : room (putp m c (firstn n ct)) (padd c (N.of_nat n)) 1).
          { apply room_putp; [apply Rk|]. apply (room_sub m c (length T)); auto. lia. }
          rewrite putp_app by auto. f_equal. rewrite Nat.add_succ_r. fold n.
          rewrite (firstn_snoc ct n 0) by lia. rewrite <- putp_app_bytes.
          -- rewrite firstn_length. replace (Nat.min n (length ct)) with n by lia. do 2 f_equal.
             rewrite Ct by lia. rewrite nth_firstn_lt, nth_skipn_add by lia. rewrite Nat.add_0_r.
             replace (n / 18)%nat with q by (unfold n; lia). fold sq. do 2 f_equal. unfold n. lia.
          -- rewrite <- firstn_snoc by lia. apply Rk.
      + now rewrite Nat.add_0_r.
      + rewrite Nat2N.id. f_equal. f_equal. rewrite firstn_all2 by lia. reflexivity.
    - unfold fin. replace (length T - 18 * q =? 0)%nat with true by lia.
      eapply runs_eq; [apply runs_ret|reflexivity|]. unfold mq. rewrite firstn_all2 by lia. reflexivity.
  Qed.
End ArmProof.
