(* The states on which the reference implementation calls its permutation. Proofs only: the proofs of RefProof.v and RefAead.v once more, with
   the record of the device of Probe.v. *)
From Verif Require Import Base Prog SpecPerm Words RefPerm AsconProof KeccakProof Mem Vocab MemProof RefLib Trace.
From Verif Require Spec RefIsap.
From Verif Require Import Sponge RefProof RefAead RefTrace RefTrace2 SpecFacts Api Probe VocabProbe.
Import Spec(inst, i_sz, i_rate, i_sH, i_sB, i_sE, i_sK, i_perm, xorp, xorz).
Import RefIsap(plib, macros, pl_init, pl_add, pl_over, pl_perm, pl_extract, ISAP_rH, ISAP_sH, ISAP_sB, ISAP_sE, ISAP_sK, ISAP_STATE_SZ).
Open Scope N_scope.
Open Scope cm_scope.

Lemma logs_of {A} (f : M A) m a m' : runs f m a m' -> silent f -> logs f m a m' [].
Proof.
  intros R S t. destruct (R t) as (t' & E). destruct (S _ _ _ E) as (ps & E2 & ->). exists t'. auto.
Qed.
Lemma logs_runs {A} (f : M A) m a m' ps : logs f m a m' ps -> runs f m a m'.
Proof. intros H t. destruct (H t) as (t' & E & _). eauto. Qed.
Lemma logs_ret {A} (a : A) m : logs (ret a) m a m [].
Proof. apply logs_of; [apply runs_ret|apply silent_ret]. Qed.
Lemma logs_bind {A B} (f : M A) (g : A -> M B) m a m1 ps b m2 qs rs :
  logs f m a m1 ps -> logs (g a) m1 b m2 qs -> ps ++ qs = rs -> logs (bind f g) m b m2 rs.
Proof.
  intros Hf Hg <- t. destruct (Hf t) as (t1 & E & P1). destruct (Hg t1) as (t2 & E2 & P2).
  exists t2. unfold bind. rewrite E. split; auto. now rewrite P2, P1, app_assoc.
Qed.
(* A step that records nothing. *)
Lemma logs_step {A B} (f : M A) (g : A -> M B) m a m1 b m2 qs :
  runs f m a m1 -> silent f -> logs (g a) m1 b m2 qs -> logs (bind f g) m b m2 qs.
Proof. intros R S Hg. eapply logs_bind; [apply logs_of; [exact R|exact S]|exact Hg|reflexivity]. Qed.
(* A last step that records nothing. *)
Lemma logs_last {A B} (f : M A) (g : A -> M B) m a m1 b m2 ps :
  logs f m a m1 ps -> runs (g a) m1 b m2 -> silent (g a) -> logs (bind f g) m b m2 ps.
Proof. intros Hf R S. eapply logs_bind; [exact Hf|apply logs_of; [exact R|exact S]|apply app_nil_r]. Qed.
Lemma logs_eq {A} (f : M A) m a m1 a' m2 ps ps' : logs f m a m1 ps -> a = a' -> m1 = m2 -> ps = ps' -> logs f m a' m2 ps'.
Proof. now intros H -> -> ->. Qed.
Lemma logs_if {A} (b : bool) (x y : M A) m a m' ps : logs (if b then x else y) m a m' ps -> logs (if_ b x y) m a m' ps.
Proof.
  intros H. eapply logs_bind; [apply logs_of; [apply runs_branch|]|exact H|reflexivity].
  intros s z s' E. destruct (silent_branch b _ _ _ E) as (qs & E1 & _ & ->). eauto.
Qed.
Lemma logs_with_block {A} n (f : ptr -> M A) m a m' b ps :
  logs (f (P (length m) 0)) (m ++ [uninit n]) a (m' ++ [b]) ps -> logs (with_block n f) m a m' ps.
Proof.
  intros H t. destruct (H t) as (t' & E & Q). exists t'. unfold with_block. cbn [smem strc]. rewrite E.
  cbn [smem strc]. now rewrite removelast_last.
Qed.
(* After k iterations the record is ps k. *)
Lemma logs_for_nat {A} (I : nat -> A) (mm : nat -> mem) (ps : nat -> list N) n body i :
  (forall k, (k < n)%nat -> exists qs, logs (body (i + N.of_nat k) (I k)) (mm k) (I (S k)) (mm (S k)) qs /\ ps k ++ qs = ps (S k)) ->
  exists qs, logs (for_nat n i body (I O)) (mm O) (I n) (mm n) qs /\ ps O ++ qs = ps n.
Proof.
  revert I mm ps i. induction n as [|n IH]; intros I mm ps i H; cbn [for_nat].
  - exists []. split; [|apply app_nil_r]. eapply logs_step; [apply runs_branch| |apply logs_ret].
    intros s z s' E. destruct (silent_branch false _ _ _ E) as (qs & E1 & _ & ->). eauto.
  - destruct (H O ltac:(lia)) as (q0 & H0 & E0). rewrite N.add_0_r in H0.
    destruct (IH (fun k => I (S k)) (fun k => mm (S k)) (fun k => ps (S k)) (i + 1)) as (q1 & H1 & E1).
    { intros k Hk. replace (i + 1 + N.of_nat k) with (i + N.of_nat (S k)) by lia. apply H. lia. }
    exists (q0 ++ q1). split.
    + eapply logs_step; [apply runs_branch| |].
      * intros s z s' E. destruct (silent_branch true _ _ _ E) as (qs & E2 & _ & ->). eauto.
      * eapply logs_bind; [exact H0|exact H1|reflexivity].
    + now rewrite app_assoc, E0.
Qed.
Lemma logs_for {A} (I : nat -> A) (mm : nat -> mem) (ps : nat -> list N) n body a0 m0 a1 m1 p1 :
  (forall k, (k < N.to_nat n)%nat -> exists qs, logs (body (N.of_nat k) (I k)) (mm k) (I (S k)) (mm (S k)) qs /\ ps k ++ qs = ps (S k)) ->
  ps O = [] -> I O = a0 -> mm O = m0 -> I (N.to_nat n) = a1 -> mm (N.to_nat n) = m1 -> ps (N.to_nat n) = p1 ->
  logs (for_ 0 n body a0) m0 a1 m1 p1.
Proof.
  intros H H0 <- <- <- <- <-. unfold for_. rewrite N.sub_0_r. destruct (logs_for_nat I mm ps (N.to_nat n) body 0 H) as (qs & R & E).
  rewrite H0 in E. cbn [app] in E. now rewrite <- E.
Qed.

Lemma seen_app leak a b : seen leak (a ++ b) = seen leak a ++ seen leak b.
Proof. unfold seen. now rewrite map_app, concat_app. Qed.
Lemma seen_one leak x r : seen leak [(x, r)] = [leak x; N.of_nat r].
Proof. reflexivity. Qed.

Lemma xorp_first s b : s <> [] -> xorp s (Spec.first_bit b) = if b then flip1 s else s.
Proof.
  destruct s as [|x s]; [congruence|]. intros _. destruct b; cbn [Spec.first_bit xorp flip1].
  - f_equal. now destruct s.
  - rewrite N.lxor_0_r. f_equal. now destruct s.
Qed.

Section Probe.
  Variables (L : plib) (I : inst) (mc : macros) (maxr : nat) (okb : nat -> Prop) (leak : list N -> N).
  Hypothesis HL : lib_ok L (i_sz I) (i_perm I) maxr okb.
  Hypothesis Hmc : mac_ok I mc maxr.
  Hypothesis Hll : lib_calls L.
  Notation sz := (i_sz I).
  Notation rate := (i_rate I).
  Notation S_ s := (map (@Some N) s).
  Notation state m := (P (length m) 0).
  Notation LP := (probed sz leak L).
  Notation wf := (wf I).
  Notation okbs := (okbs okb).
  Notation seen := (seen leak).

  Lemma p_init (m : mem) n (rest : mem) x : length x = sz -> n = state m ->
    runs (RefIsap.Permutation_Initialize LP n) (m ++ x :: rest) tt (m ++ S_ (repeat 0 sz) :: rest).
  Proof. exact (r_init L I maxr okb HL m n rest x). Qed.
  Lemma s_init n : silent (RefIsap.Permutation_Initialize LP n).
  Proof. exact (ll_init _ Hll n). Qed.
  Lemma p_add (m : mem) s (rest : mem) d bs o n off : off = N.of_nat o -> n = N.of_nat (length bs) ->
    length s = sz -> has (m ++ S_ s :: rest) d bs -> pb d <> length m -> (o < sz)%nat -> (o + length bs <= sz)%nat ->
    runs (RefIsap.Permutation_AddBytes LP (state m) d off n) (m ++ S_ s :: rest) tt
         (m ++ S_ (addat s o bs) :: rest).
  Proof. exact (r_add L I maxr okb HL m s rest d bs o n off). Qed.
  Lemma s_add s d o n : silent (RefIsap.Permutation_AddBytes LP s d o n).
  Proof. exact (ll_add _ Hll s d (u32 o) (u32 n)). Qed.
  Lemma p_extract (m : mem) s (rest : mem) d o k off n : off = N.of_nat o -> n = N.of_nat k ->
    length s = sz -> room (m ++ S_ s :: rest) d k -> pb d <> length m -> (o < sz)%nat -> (o + k <= sz)%nat ->
    runs (RefIsap.Permutation_ExtractBytes LP (state m) d off n) (m ++ S_ s :: rest) tt
         (putp (m ++ S_ s :: rest) d (firstn k (skipn o s))).
  Proof. exact (r_extract L I maxr okb HL m s rest d o k off n). Qed.
  Lemma s_extract s d o n : silent (RefIsap.Permutation_ExtractBytes LP s d o n).
  Proof. exact (ll_extract _ Hll s d (u32 o) (u32 n)). Qed.
  Lemma p_over (m : mem) x (rest : mem) d bs o off n s : off = N.of_nat o -> n = N.of_nat (length bs) ->
    length x = sz -> has (m ++ x :: rest) d bs -> pb d <> length m -> (o < sz)%nat -> (o + length bs <= sz)%nat ->
    splice x o (S_ bs) = S_ s ->
    runs (RefIsap.Permutation_OverwriteBytes LP (state m) d off n) (m ++ x :: rest) tt (m ++ S_ s :: rest).
  Proof. exact (r_over L I maxr okb HL m x rest d bs o off n s). Qed.
  Lemma s_over s d o n : silent (RefIsap.Permutation_OverwriteBytes LP s d o n).
  Proof. exact (ll_over _ Hll s d (u32 o) (u32 n)). Qed.
  Lemma p_add_local (m : mem) s (rest : mem) v o off : off = N.of_nat o -> length s = sz -> (o < sz)%nat ->
    runs (RefIsap.add_local LP (state m) v off) (m ++ S_ s :: rest) tt (m ++ S_ (addat s o [v]) :: rest).
  Proof. exact (r_add_local L I maxr okb HL m s rest v o off). Qed.
  Lemma s_add_local s v o : silent (RefIsap.add_local LP s v o).
  Proof. exact (silent_add_local L Hll s v o). Qed.

  (* The one step that records. *)
  Lemma l_permute (m : mem) s (rest : mem) r n : n = N.of_nat r -> (r <= maxr)%nat -> okb (length m) -> wf s ->
    logs (RefIsap.Permutation_Permute_Nrounds LP (state m) n) (m ++ S_ s :: rest) tt
         (m ++ S_ (i_perm I r s) :: rest) (seen [(s, r)]).
  Proof.
    intros -> Hr Hb Ws. pose proof (mo_maxr _ _ _ Hmc). pose proof Ws as [Ls Bs].
    unfold RefIsap.Permutation_Permute_Nrounds. rewrite u32_small by lia. cbn [probed pl_perm].
    eapply logs_step.
    { rewrite <- Ls at 1. apply runs_loads_, has_blk0, blk_mid. }
    { apply silent_loads_. }
    intros t. destruct (r_permute L I mc maxr okb HL Hmc m s rest r (N.of_nat r) eq_refl Hr Hb Ws (EPerm (leak s) :: t)) as (t' & E).
    unfold RefIsap.Permutation_Permute_Nrounds in E. rewrite u32_small in E by lia.
    exists t'. unfold bind, emit. cbn [smem strc]. split; [exact E|].
    destruct (ll_perm _ Hll _ _ _ _ _ E) as (ps & E2 & ->). cbn [strc] in E2. rewrite perms_cons in E2. rewrite E2, <- app_assoc. reflexivity.
  Qed.

  Notation rk_fold := (fold_left (fun s b => i_perm I (i_sB I) (xorp s (Spec.first_bit b)))).

  (* The calls with s_B rounds. *)
  Fixpoint sB_in (s : list N) (Y : list bool) : list call :=
    match Y with [] => [] | b :: Y' => (xorp s (Spec.first_bit b), i_sB I) :: sB_in (i_perm I (i_sB I) (xorp s (Spec.first_bit b))) Y' end.
  Lemma sB_in_snoc s Y b : sB_in s (Y ++ [b]) = sB_in s Y ++ [(xorp (rk_fold Y s) (Spec.first_bit b), i_sB I)].
  Proof. revert s; induction Y as [|c Y IH]; intros s; cbn [sB_in app fold_left]; [reflexivity|]. now rewrite IH. Qed.
  Lemma wf_nonnil s : wf s -> s <> [].
  Proof. intros [H _] ->. pose proof (mo_szlo _ _ _ Hmc). cbn [length] in H. lia. Qed.
  Lemma wf_step s b : wf s -> wf (i_perm I (i_sB I) (xorp s (Spec.first_bit b))).
  Proof.
    intros H. apply (wf_perm L I maxr okb HL); [apply (mo_leB _ _ _ Hmc)|]. apply wf_xorp; auto. apply bytes_first_bit.
  Qed.
  Lemma rk_steps_snoc s Y b : wf s ->
    rk_steps I s (Y ++ [b]) = sB_in s Y ++ [(xorp (rk_fold Y s) (Spec.first_bit b), i_sK I)].
  Proof.
    revert s; induction Y as [|c Y IH]; intros s Ws.
    - cbn [app rk_steps sB_in fold_left]. now rewrite xorp_first by now apply wf_nonnil.
    - cbn [sB_in fold_left app]. rewrite <- IH by now apply wf_step.
      rewrite xorp_first by now apply wf_nonnil. cbn [rk_steps]. destruct (Y ++ [b]) eqn:E; [now destruct Y|reflexivity].
  Qed.
  Lemma l_isap_rk (m : mem) k ivp inp out kb ivb Y n outlen :
    okb (length m) -> outlen = N.of_nat n ->
    has m k kb -> has m ivp ivb -> has m inp Y ->
    length kb = 16%nat -> length ivb = 8%nat -> length Y = 16%nat -> bytes kb -> bytes ivb -> bytes Y ->
    room m out n -> (0 < n <= sz)%nat ->
    logs (RefIsap.isap_rk LP mc k ivp inp 16 out outlen) m tt (putp m out (Spec.isap_rk I kb ivb Y n)) (seen (rk_in I kb ivb Y)).
  Proof.
    intros Hokb -> Hk Hiv HY Lk Liv LY Bk Biv BY Hout Hn.
    pose proof (mo_szlo _ _ _ Hmc) as Hz.
    unfold RefIsap.isap_rk. rewrite (mo_sz _ _ _ Hmc), Nat2N.id.
    set (s0 := i_perm I (i_sK I) (Spec.zpad I (kb ++ ivb))).
    set (bits := Spec.msb_bits Y).
    assert (Hbits : length bits = 128%nat) by (unfold bits; rewrite msb_bits_length, LY; reflexivity).
    set (bl := nth 127 bits false).
    set (s1 := rk_fold (firstn 127 bits) s0).
    set (s2 := i_perm I (i_sK I) (xorp s1 (Spec.first_bit bl))).
    assert (Ws0 : wf s0).
    { apply (wf_perm L I maxr okb HL); [apply (mo_leK _ _ _ Hmc)|]. apply (wf_zpad I); [now apply bytes_app|rewrite app_length; lia]. }
    assert (Ws1 : wf s1) by now apply (wf_rk_fold L I mc maxr okb HL Hmc).
    assert (Es2 : Spec.isap_rk I kb ivb Y n = firstn n s2).
    { unfold Spec.isap_rk. fold s0. fold bits. rewrite <- (firstn_skipn 127 bits) at 1.
      replace (skipn 127 bits) with [bl].
      - now rewrite rk_absorb_snoc.
      - unfold bl. rewrite (skipn_cons_nth bits 127 false) by lia. rewrite skipn_all2 by lia. reflexivity. }
    rewrite Es2.
    assert (Elog : seen (rk_in I kb ivb Y) = seen [(Spec.zpad I (kb ++ ivb), i_sK I)] ++ seen (sB_in s0 (firstn 127 bits)) ++
                                             seen [(xorp s1 (Spec.first_bit bl), i_sK I)]).
    { rewrite <- !seen_app. unfold rk_in. fold s0. fold bits. cbn [app]. rewrite <- (firstn_skipn 127 bits) at 1.
      replace (skipn 127 bits) with [bl].
      - rewrite rk_steps_snoc by auto. reflexivity.
      - unfold bl. rewrite (skipn_cons_nth bits 127 false) by lia. rewrite skipn_all2 by lia. reflexivity. }
    rewrite Elog. clear Elog.
    assert (Hpb : forall p bs x, has m p bs -> length bs = S x -> pb p <> length m).
    { intros p bs x H1 H2. pose proof (has_pb _ _ _ H1 (nonnil _ _ H2)). lia. }
    apply (logs_with_block _ _ _ _ _ (S_ s2)).
    eapply logs_step; [apply p_init; [apply uninit_length|reflexivity]|apply s_init|].
    eapply logs_step; [|apply s_add|].
    { apply (p_add m (repeat 0 sz) [] k kb 0); auto; try lia.
      - now rewrite Lk.
      - apply repeat_length.
      - now apply has_app.
      - now apply (Hpb _ _ 15%nat Hk). }
    eapply logs_step; [|apply s_add|].
    { apply (p_add m _ [] ivp ivb 16); auto; try lia.
      - now rewrite Liv.
      - now rewrite addat_length, repeat_length.
      - now apply has_app.
      - now apply (Hpb _ _ 7%nat Hiv). }
    rewrite (zpad_add I mc maxr Hmc) by auto.
    eapply logs_bind; [|cbv beta|reflexivity].
    { apply (l_permute m _ [] (i_sK I)); auto; [apply (mo_sK _ _ _ Hmc)|apply (mo_leK _ _ _ Hmc)|].
      apply (wf_zpad I); [now apply bytes_app|rewrite app_length; lia]. }
    fold s0. eapply logs_bind; [|cbv beta|reflexivity].
    { apply (logs_for (fun _ => tt) (fun j => m ++ [S_ (rk_fold (firstn j bits) s0)]) (fun j => seen (sB_in s0 (firstn j bits))))
        with (a1 := tt) (m1 := m ++ [S_ s1]); auto.
      change (N.to_nat (sub64 (u64 (16 * 8)) 1)) with 127%nat. intros j Hj. cbv zeta.
      exists (seen [(xorp (rk_fold (firstn j bits) s0) (Spec.first_bit (nth j bits false)), i_sB I)]). split.
      2:{ rewrite <- seen_app, (firstn_snoc bits j false) by lia. now rewrite sB_in_snoc. }
      eapply logs_step; [|apply silent_load|].
      - apply runs_load, rd1_app. replace (N.of_nat j / 8) with (N.of_nat (j / 8)) by lia. apply HY. lia.
      - rewrite first_bit_val. rewrite <- nth_msb_bits by lia. fold bits.
        eapply logs_step; [|apply s_add_local|].
        + apply (p_add_local m _ [] _ 0); auto; [|lia]. apply (proj1 (wf_rk_fold L I mc maxr okb HL Hmc (firstn j bits) s0 Ws0)).
        + rewrite addat_0. rewrite (firstn_snoc bits j false) by lia. rewrite fold_left_app. cbn [fold_left].
          apply l_permute; auto; [apply (mo_sB _ _ _ Hmc)|apply (mo_leB _ _ _ Hmc)|].
          apply (wf_xorp I _ (Spec.first_bit _)); [apply bytes_first_bit|now apply (wf_rk_fold L I mc maxr okb HL Hmc)]. }
    eapply logs_step; [|apply silent_load|].
    { apply runs_load, rd1_app. change (sub64 16 1) with (N.of_nat 15). apply HY. lia. }
    assert (Ebl : u8 (N.shiftl (N.land (nth 15 Y 0) 1) 7) = if bl then 0x80 else 0).
    { rewrite <- (N.shiftr_0_r (nth 15 Y 0)), first_bit_val. unfold bl, bits. rewrite nth_msb_bits by lia.
      reflexivity. }
    rewrite Ebl.
    eapply logs_step; [apply (p_add_local m s1 [] _ 0); auto; [apply Ws1|lia]|apply s_add_local|].
    rewrite addat_0. change [if bl then 0x80 else 0] with (Spec.first_bit bl).
    eapply logs_last; [| |apply s_extract].
    { apply (l_permute m _ [] (i_sK I)); auto; [apply (mo_sK _ _ _ Hmc)|apply (mo_leK _ _ _ Hmc)|].
      apply wf_xorp; auto. apply bytes_first_bit. }
    fold s2. assert (Ws2 : wf s2).
    { apply (wf_perm L I maxr okb HL); [apply (mo_leK _ _ _ Hmc)|]. apply wf_xorp; auto. apply bytes_first_bit. }
    eapply runs_eq.
    - apply (p_extract m s2 [] out 0 n); auto; try lia.
      + apply Ws2.
      + now apply room_app.
      + apply Nat.lt_neq, (room_pb m out n Hout). lia.
    - reflexivity.
    - cbn [skipn]. apply putp_app. rewrite firstn_length, (proj1 Ws2). now replace (Nat.min n sz) with n by lia.
  Qed.



  Notation pH := (i_perm I (i_sH I)).
  Notation lz := (lazy_step rate pH).
  Notation eg := (eager_step rate pH).

  (* The calls made while bytes are added one at a time: lazily (before a byte that finds no room), eagerly (after a byte that fills the block). *)
  Fixpoint lz_in (sa : list N * nat) (x : list N) : list call :=
    match x with [] => [] | b :: x' => (if (snd sa =? 0)%nat then [(fst sa, i_sH I)] else []) ++ lz_in (lz sa b) x' end.
  Fixpoint eg_in (sa : list N * nat) (x : list N) : list call :=
    match x with
    | [] => []
    | b :: x' => (if (snd sa - 1 =? 0)%nat then [(addat (fst sa) (rate - snd sa) [b], i_sH I)] else []) ++ eg_in (eg sa b) x'
    end.
  Lemma lz_in_app sa x y : lz_in sa (x ++ y) = lz_in sa x ++ lz_in (fold_left lz x sa) y.
  Proof. revert sa; induction x as [|b x IH]; intros sa; cbn [lz_in app fold_left]; [reflexivity|]. now rewrite IH, app_assoc. Qed.
  Lemma eg_in_app sa x y : eg_in sa (x ++ y) = eg_in sa x ++ eg_in (fold_left eg x sa) y.
  Proof. revert sa; induction x as [|b x IH]; intros sa; cbn [eg_in app fold_left]; [reflexivity|]. now rewrite IH, app_assoc. Qed.

  Lemma rate_pos : (0 < rate)%nat.
  Proof. apply (mo_rate _ _ _ Hmc). Qed.

  Lemma lz_in_block s y : (length y <= rate)%nat -> lz_in (s, rate) y = [].
  Proof.
    pose proof rate_pos as Hr. induction y as [|b y IH] using rev_ind; intros H; [reflexivity|].
    rewrite app_length in H. cbn [length] in H. rewrite lz_in_app, IH by lia. cbn [app]. rewrite (lazy_block rate pH Hr) by lia.
    cbn [lz_in snd]. replace (rate - length y =? 0)%nat with false by lia. reflexivity.
  Qed.
  Lemma eg_in_block s y : (length y < rate)%nat -> eg_in (s, rate) y = [].
  Proof.
    pose proof rate_pos as Hr. induction y as [|b y IH] using rev_ind; intros H; [reflexivity|].
    rewrite app_length in H. cbn [length] in H. rewrite eg_in_app, IH by lia. cbn [app]. rewrite (eager_block rate pH Hr) by lia.
    cbn [eg_in snd]. replace (rate - length y - 1 =? 0)%nat with false by lia. reflexivity.
  Qed.
  Lemma eg_in_full s y : length y = rate -> eg_in (s, rate) y = [(xorp s y, i_sH I)].
  Proof.
    pose proof rate_pos as Hr. intros H. destruct y as [|b y _] using rev_ind; [cbn in H; lia|].
    rewrite app_length in H. cbn [length] in H. rewrite eg_in_app, eg_in_block by lia. cbn [app]. rewrite (eager_block rate pH Hr) by lia.
    cbn [eg_in fst snd]. replace (rate - length y - 1 =? 0)%nat with true by lia.
    replace (rate - (rate - length y))%nat with (length y) by lia. now rewrite addat_xorp.
  Qed.

  Lemma pad_end s x : (length x < rate)%nat -> addat (xorp s x) (length x) [0x80] = xorp s (Spec.pad rate x).
  Proof.
    intros H. rewrite addat_xorp. unfold Spec.pad. rewrite <- (xorp_zeros s (x ++ [0x80]) (rate - 1 - length x mod rate)), <- app_assoc. reflexivity.
  Qed.

  Lemma lz_in_spec x s :
    lz_in (s, rate) (x ++ [0x80]) ++ [(fst (lz (fold_left lz x (s, rate)) 0x80), i_sH I)] = absorb_in I s (chunks rate (Spec.pad rate x)).
  Proof.
    pose proof rate_pos as Hr. remember (length x) as n eqn:En. revert x s En. induction n as [n IH] using lt_wf_ind; intros x s ->.
    destruct (Nat.ltb_spec (length x) rate) as [H|H].
    - rewrite lz_in_block by (rewrite app_length; cbn [length]; lia). rewrite (lazy_block rate pH Hr) by lia.
      rewrite chunks_short by (rewrite pad_short; lia). cbn [absorb_in app]. unfold lazy_step. cbn [fst snd].
      replace (rate - length x =? 0)%nat with false by lia. cbn [fst].
      replace (rate - (rate - length x))%nat with (length x) by lia. now rewrite pad_end.
    - destruct (split_at rate x H) as (b & x' & -> & Hb). rewrite app_length in H.
      rewrite pad_app, chunks_app by auto. cbn [absorb_in].
      rewrite <- (IH (length x')) by (rewrite ?app_length; auto; lia).
      rewrite <- app_assoc, lz_in_app, lz_in_block by lia. cbn [app]. rewrite fold_left_app, (lazy_block rate pH Hr) by lia.
      replace (rate - length b)%nat with 0%nat by lia.
      assert (E : forall y, y <> [] -> fold_left lz y (xorp s b, 0%nat) = fold_left lz y (pH (xorp s b), rate)).
      { intros [|c y] Hy; [congruence|]. apply (lazy_zero rate pH Hr). }
      assert (E2 : forall y, y <> [] -> lz_in (xorp s b, 0%nat) y = (xorp s b, i_sH I) :: lz_in (pH (xorp s b), rate) y).
      { intros [|c y] Hy; [congruence|]. cbn [lz_in snd fst]. replace (rate =? 0)%nat with false by lia. cbn [Nat.eqb app].
        do 2 f_equal. unfold lazy_step. cbn [fst snd]. replace (rate =? 0)%nat with false by lia. reflexivity. }
      rewrite E2 by now destruct x'. cbn [app]. do 4 f_equal.
      change (lz ?sa 0x80) with (fold_left lz [0x80] sa). rewrite <- !fold_left_app. rewrite E by now destruct x'. reflexivity.
  Qed.
  Lemma eg_in_spec x s : let sa := fold_left eg x (s, rate) in
    eg_in (s, rate) x ++ [(addat (fst sa) (rate - snd sa) [0x80], i_sH I)] = absorb_in I s (chunks rate (Spec.pad rate x)).
  Proof.
    cbv zeta. pose proof rate_pos as Hr. remember (length x) as n eqn:En. revert x s En. induction n as [n IH] using lt_wf_ind; intros x s ->.
    destruct (Nat.ltb_spec (length x) rate) as [H|H].
    - rewrite eg_in_block by lia. rewrite (eager_block rate pH Hr) by lia.
      rewrite chunks_short by (rewrite pad_short; lia). cbn [absorb_in app fst snd].
      replace (rate - (rate - length x))%nat with (length x) by lia. now rewrite pad_end.
    - destruct (split_at rate x H) as (b & x' & -> & Hb). rewrite app_length in H.
      rewrite pad_app, chunks_app by auto. cbn [absorb_in].
      rewrite eg_in_app, eg_in_full by auto. rewrite fold_left_app, (eager_full rate pH Hr) by auto. cbn [app]. f_equal.
      apply (IH (length x')); rewrite ?app_length; auto; lia.
  Qed.

  (* One lazy step in memory. *)
  Lemma l_lazy_perm (m : mem) s (rest : mem) a : okb (length m) -> wf s -> (a <= rate)%nat ->
    logs (if_ (N.of_nat a =? 0)
            (RefIsap.Permutation_Permute_Nrounds LP (state m) (ISAP_sH mc) ;; ret (N.of_nat rate))
            (ret (N.of_nat a))) (m ++ S_ s :: rest)
         (N.of_nat (if (a =? 0)%nat then rate else a))
         (m ++ S_ (if (a =? 0)%nat then pH s else s) :: rest) (seen (if (a =? 0)%nat then [(s, i_sH I)] else [])).
  Proof.
    intros Hb Ws Ha. apply logs_if. destruct (Nat.eqb_spec a 0) as [->|Hz].
    - change (N.of_nat 0 =? 0) with true. cbv iota. eapply logs_last; [|apply runs_ret|apply silent_ret].
      apply (l_permute m s rest (i_sH I)); auto; [apply (mo_sH _ _ _ Hmc)|apply (mo_leH _ _ _ Hmc)].
    - replace (N.of_nat a =? 0) with false by lia. apply logs_ret.
  Qed.

  Lemma l_ad_loop (m : mem) s (rest : mem) ad A : okb (length m) -> wf s -> has m ad A -> bytes A ->
    let sa := fold_left lz A (s, rate) in
    logs (RefIsap.mac_ad_loop LP mc (state m) ad (N.of_nat (length A))) (m ++ S_ s :: rest)
         (N.of_nat (snd sa)) (m ++ S_ (fst sa) :: rest) (seen (lz_in (s, rate) A)).
  Proof.
    intros Hb Ws HA BA. cbv zeta. unfold RefIsap.mac_ad_loop. rewrite (rH_SZ I mc maxr Hmc).
    pose proof (mo_rate _ _ _ Hmc) as Hr. pose proof (mo_byte _ _ _ Hmc) as Hr2.
    apply (logs_for (fun k => N.of_nat (snd (fold_left lz (firstn k A) (s, rate))))
                    (fun k => m ++ S_ (fst (fold_left lz (firstn k A) (s, rate))) :: rest)
                    (fun k => seen (lz_in (s, rate) (firstn k A)))); auto.
    - rewrite Nat2N.id. intros k Hk.
      pose proof (lazy_avail rate pH ltac:(lia) (firstn k A) s) as Hav.
      pose proof (lazy_ok rate pH wf (wf_pH L I mc maxr okb HL Hmc) (fun s o b => wf_add1 I s o b) (firstn k A) (s, rate)
                    (bytes_firstn _ _ BA) Ws) as Wk.
      rewrite (firstn_snoc A k 0), fold_left_app, lz_in_app by auto. cbn [fold_left].
      destruct (fold_left lz (firstn k A) (s, rate)) as [sk a]. cbn [fst snd] in *.
      exists (seen (if (a =? 0)%nat then [(sk, i_sH I)] else [])). split.
      2:{ rewrite <- seen_app. cbn [lz_in fst snd]. now rewrite app_nil_r. }
      eapply logs_bind; [apply (l_lazy_perm m sk rest a); auto| |apply app_nil_r].
      eapply logs_step; [apply runs_load, rd1_app, HA; auto|apply silent_load|].
      eapply logs_step; [|apply s_add_local|].
      + apply (p_add_local m _ rest _ (rate - (if (a =? 0)%nat then rate else a))).
        * rewrite (sub64_small); destruct (Nat.eqb_spec a 0); lia.
        * destruct (Nat.eqb_spec a 0); [apply (wf_pH L I mc maxr okb HL Hmc _ Wk)|apply Wk].
        * destruct (Nat.eqb_spec a 0); lia.
      + eapply logs_eq; [apply logs_ret| | |reflexivity].
        * unfold lazy_step. cbn [fst snd]. destruct (Nat.eqb_spec a 0); cbn [fst snd];
            rewrite (sub64_small); lia.
        * unfold lazy_step. cbn [fst snd]. now destruct (Nat.eqb_spec a 0).
    - now rewrite Nat2N.id, firstn_all.
    - now rewrite Nat2N.id, firstn_all.
    - now rewrite Nat2N.id, firstn_all.
  Qed.

  Lemma l_ad_pad (m : mem) s a (rest : mem) : okb (length m) -> wf s -> (a <= rate)%nat ->
    logs (RefIsap.mac_ad_pad LP mc (state m) (N.of_nat a)) (m ++ S_ s :: rest) tt
         (m ++ S_ (pH (fst (lz (s, a) 0x80))) :: rest) (seen (lz_in (s, a) [0x80] ++ [(fst (lz (s, a) 0x80), i_sH I)])).
  Proof.
    intros Hb Ws Ha. unfold RefIsap.mac_ad_pad.
    pose proof (mo_rate _ _ _ Hmc) as Hr. pose proof (mo_byte _ _ _ Hmc) as Hr2.
    rewrite (rH_SZ I mc maxr Hmc).
    cbn [lz_in]. rewrite app_nil_r, seen_app. cbn [fst snd].
    eapply logs_bind; [apply (l_lazy_perm m s rest a); auto| |reflexivity].
    set (s1 := if (a =? 0)%nat then pH s else s). set (a1 := if (a =? 0)%nat then rate else a).
    assert (Ws1 : wf s1) by (unfold s1; destruct (a =? 0)%nat; auto; now apply (wf_pH L I mc maxr okb HL Hmc)).
    assert (Ha1 : (0 < a1 <= rate)%nat) by (unfold a1; destruct (Nat.eqb_spec a 0); lia).
    eapply logs_step; [|apply s_add_local|].
    - apply (p_add_local m s1 rest _ (rate - a1)); [rewrite (sub64_small); lia|apply Ws1|lia].
    - replace (fst (lz (s, a) 0x80)) with (addat s1 (rate - a1) [0x80]).
      + apply l_permute; auto; [apply (mo_sH _ _ _ Hmc)|apply (mo_leH _ _ _ Hmc)|]. apply (wf_add1 I); auto. lia.
      + unfold lazy_step, s1, a1. cbn [fst snd]. destruct (a =? 0)%nat; reflexivity.
  Qed.

  Lemma l_c_loop (m : mem) s (rest : mem) c C : okb (length m) -> wf s -> has m c C -> bytes C ->
    let sa := fold_left eg C (s, rate) in
    logs (RefIsap.mac_c_loop LP mc (state m) c (N.of_nat (length C))) (m ++ S_ s :: rest)
         (N.of_nat (snd sa)) (m ++ S_ (fst sa) :: rest) (seen (eg_in (s, rate) C)).
  Proof.
    intros Hb Ws HA BA. cbv zeta. unfold RefIsap.mac_c_loop. rewrite (rH_SZ I mc maxr Hmc).
    pose proof (mo_rate _ _ _ Hmc) as Hr. pose proof (mo_byte _ _ _ Hmc) as Hr2.
    apply (logs_for (fun k => N.of_nat (snd (fold_left eg (firstn k C) (s, rate))))
                    (fun k => m ++ S_ (fst (fold_left eg (firstn k C) (s, rate))) :: rest)
                    (fun k => seen (eg_in (s, rate) (firstn k C)))); auto.
    - rewrite Nat2N.id. intros k Hk.
      pose proof (eager_avail rate pH ltac:(lia) (firstn k C) s) as Hav.
      pose proof (eager_ok rate pH wf (wf_pH L I mc maxr okb HL Hmc) (fun s o b => wf_add1 I s o b) (firstn k C) (s, rate)
                    (bytes_firstn _ _ BA) Ws) as Wk.
      rewrite (firstn_snoc C k 0), fold_left_app, eg_in_app by auto. cbn [fold_left].
      destruct (fold_left eg (firstn k C) (s, rate)) as [sk a]. cbn [fst snd] in *.
      exists (seen (if (a - 1 =? 0)%nat then [(addat sk (rate - a) [nth k C 0], i_sH I)] else [])). split.
      2:{ rewrite <- seen_app. cbn [eg_in fst snd]. now rewrite app_nil_r. }
      eapply logs_step; [apply runs_load, rd1_app, HA; auto|apply silent_load|].
      eapply logs_step; [|apply s_add_local|].
      + apply (p_add_local m sk rest _ (rate - a)); [rewrite (sub64_small); lia|apply Wk|lia].
      + cbv zeta. replace (sub64 (N.of_nat a) 1) with (N.of_nat (a - 1)) by (rewrite (sub64_small); lia).
        assert (Wk1 : wf (addat sk (rate - a) [nth k C 0])) by (apply (wf_add1 I); auto; now apply bytes_nth).
        eapply logs_eq; [apply (l_lazy_perm m _ rest (a - 1)); auto; lia| | |reflexivity];
          unfold eager_step; cbn [fst snd]; now destruct (a - 1 =? 0)%nat.
    - now rewrite Nat2N.id, firstn_all.
    - now rewrite Nat2N.id, firstn_all.
    - now rewrite Nat2N.id, firstn_all.
  Qed.


  Lemma l_isap_mac (m : mem) k npub ad c tag kb nb A C : okbs m ->
    has m k kb -> has m npub nb -> has m ad A -> has m c C ->
    has m RefIsap.ISAP_IV_A (Spec.iv_A I) -> has m RefIsap.ISAP_IV_KA (Spec.iv_KA I) ->
    length kb = 16%nat -> length nb = 16%nat -> bytes kb -> bytes nb -> bytes A -> bytes C ->
    room m tag 16 ->
    logs (RefIsap.isap_mac LP mc k npub ad (N.of_nat (length A)) c (N.of_nat (length C)) tag) m tt
         (putp m tag (Spec.isap_mac I kb nb A C)) (seen (mac_in I kb nb A C)).
  Proof.
    intros Hokb Hk Hn HA HC HivA HivKA Lk Ln Bk Bn BA BC Htag.
    pose proof (mo_szlo _ _ _ Hmc) as Hz. pose proof (mo_rate _ _ _ Hmc) as Hr.
    pose proof (mo_byte _ _ _ Hmc) as Hr2.
    assert (Hb0 : okb (length m)) by (apply Hokb; lia).
    assert (BivA : bytes (Spec.iv_A I)) by (apply (bytes_iv I mc maxr Hmc); lia).
    assert (BivKA : bytes (Spec.iv_KA I)) by (apply (bytes_iv I mc maxr Hmc); lia).
    unfold RefIsap.isap_mac. rewrite (mo_sz _ _ _ Hmc), Nat2N.id.
    set (s0 := pH (Spec.zpad I (nb ++ Spec.iv_A I))).
    assert (Wz : wf (Spec.zpad I (nb ++ Spec.iv_A I))).
    { apply (wf_zpad I); [now apply bytes_app|]. rewrite app_length. cbn [length Spec.iv_A Spec.iv]. lia. }
    assert (Ws0 : wf s0) by now apply (wf_pH L I mc maxr okb HL Hmc).
    set (s1 := Spec.absorb I s0 (chunks rate (Spec.pad rate A))).
    assert (Ws1 : wf s1) by now apply (wf_absorb L I mc maxr okb HL Hmc).
    set (s2 := Spec.dom_sep I s1).
    assert (Ws2 : wf s2).
    { unfold s2. rewrite (dom_sep_addat I mc maxr Hmc) by apply Ws1. apply (wf_add1 I); auto. lia. }
    set (s3 := Spec.absorb I s2 (chunks rate (Spec.pad rate C))).
    assert (Ws3 : wf s3) by now apply (wf_absorb L I mc maxr okb HL Hmc).
    set (y := firstn 16 s3).
    assert (Ly : length y = 16%nat) by (unfold y; rewrite firstn_length, (proj1 Ws3); lia).
    assert (By : bytes y) by (apply bytes_firstn, Ws3).
    set (ka := Spec.isap_rk I kb (Spec.iv_KA I) y 16).
    assert (Wka : bytes ka /\ length ka = 16%nat) by (apply (wf_rk L I mc maxr okb HL Hmc); auto; lia).
    destruct Wka as [Bka Lka].
    set (s4 := pH (ka ++ skipn 16 s3)).
    assert (Ws4 : wf s4).
    { apply (wf_pH L I mc maxr okb HL Hmc). split.
      - rewrite app_length, skipn_length, (proj1 Ws3). lia.
      - apply bytes_app. split; auto. apply bytes_skipn, Ws3. }
    assert (Etag : Spec.isap_mac I kb nb A C = firstn 16 s4) by reflexivity.
    rewrite Etag.
    assert (Elog : mac_in I kb nb A C = [(Spec.zpad I (nb ++ Spec.iv_A I), i_sH I)] ++ absorb_in I s0 (chunks rate (Spec.pad rate A)) ++
      absorb_in I s2 (chunks rate (Spec.pad rate C)) ++ rk_in I kb (Spec.iv_KA I) y ++ [(ka ++ skipn 16 s3, i_sH I)]).
    { unfold mac_in, hash_in. rewrite <- app_comm_cons, <- app_assoc. reflexivity. }
    rewrite Elog, !seen_app. clear Elog.
    assert (Hpb : forall p bs x, has m p bs -> length bs = S x -> pb p <> length m).
    { intros p bs x H1 H2. pose proof (has_pb _ _ _ H1 (nonnil _ _ H2)). lia. }
    apply (logs_with_block _ _ _ _ _ (S_ s4)).
    eapply logs_step; [apply p_init; [apply uninit_length|reflexivity]|apply s_init|].
    eapply logs_step; [|apply s_add|].
    { apply (p_add m (repeat 0 sz) [] npub nb 0); auto; try lia.
      - now rewrite Ln.
      - apply repeat_length.
      - now apply has_app.
      - now apply (Hpb _ _ 15%nat Hn). }
    eapply logs_step; [|apply s_add|].
    { apply (p_add m _ [] RefIsap.ISAP_IV_A (Spec.iv_A I) 16); auto; try (cbn [length Spec.iv_A Spec.iv]; lia).
      - now rewrite addat_length, repeat_length.
      - now apply has_app.
      - now apply (Hpb _ _ 7%nat HivA). }
    rewrite (zpad_add I mc maxr Hmc) by auto.
    eapply logs_bind; [|cbv beta|reflexivity].
    { apply (l_permute m _ [] (i_sH I)); auto; [apply (mo_sH _ _ _ Hmc)|apply (mo_leH _ _ _ Hmc)]. }
    fold s0. rewrite <- (lz_in_spec A s0), lz_in_app, <- app_assoc, seen_app, <- app_assoc.
    eapply logs_bind; [apply (l_ad_loop m s0 [] ad A); auto| |reflexivity].
    pose proof (lazy_spec rate pH ltac:(lia) A s0) as Elz.
    pose proof (lazy_avail rate pH ltac:(lia) A s0) as Hav.
    pose proof (lazy_ok rate pH wf (wf_pH L I mc maxr okb HL Hmc) (fun s o b => wf_add1 I s o b) A (s0, rate) BA Ws0) as Wk.
    destruct (fold_left lz A (s0, rate)) as [sk a]. cbn [fst snd] in Hav, Wk. cbn [fst snd].
    eapply logs_bind; [apply (l_ad_pad m sk a []); auto| |reflexivity].
    rewrite Elz. change (fold_left _ (chunks rate (Spec.pad rate A)) s0) with s1. clear sk a Elz Hav Wk.
    eapply logs_step; [|apply s_add_local|].
    { apply (p_add_local m s1 [] 1 (sz - 1)); [unfold RefIsap.CRYPTO_NPUBBYTES; lia|apply Ws1|lia]. }
    rewrite <- (dom_sep_addat I mc maxr Hmc) by apply Ws1. fold s2.
    pose proof (eg_in_spec C s2) as Eli. cbv zeta in Eli. rewrite <- Eli, seen_app, <- app_assoc. clear Eli.
    eapply logs_bind; [apply (l_c_loop m s2 [] c C); auto| |reflexivity].
    pose proof (eager_spec rate pH ltac:(lia) C s2) as Eeg. cbv zeta in Eeg.
    pose proof (eager_avail rate pH ltac:(lia) C s2) as Hav.
    pose proof (eager_ok rate pH wf (wf_pH L I mc maxr okb HL Hmc) (fun s o b => wf_add1 I s o b) C (s2, rate) BC Ws2) as Wk.
    destruct (fold_left eg C (s2, rate)) as [sk a]. cbn [fst snd] in Hav, Wk, Eeg. cbn [fst snd].
    rewrite (rH_SZ I mc maxr Hmc).
    eapply logs_step; [|apply s_add_local|].
    { apply (p_add_local m sk [] 0x80 (rate - a)); [rewrite (sub64_small); lia|apply Wk|lia]. }
    eapply logs_bind; [|cbv beta|reflexivity].
    { apply (l_permute m _ [] (i_sH I)); auto; [apply (mo_sH _ _ _ Hmc)|apply (mo_leH _ _ _ Hmc)|].
      apply (wf_add1 I); auto. lia. }
    rewrite Eeg. change (fold_left _ (chunks rate (Spec.pad rate C)) s2) with s3. clear sk a Eeg Hav Wk.
    (* locals y and ka_star *)
    apply (logs_with_block _ _ _ _ _ (S_ y)). rewrite <- app_assoc. cbn [app].
    apply (logs_with_block _ _ _ _ _ (S_ ka)). rewrite <- app_assoc. cbn [app].
    rewrite !app_length. cbn [length].
    assert (Hput : forall (x1 x2 : block) i v, length x2 = length v ->
      putp (m ++ [x1; x2] ++ i) (P (length m + 1) 0) v = m ++ [x1; S_ v] ++ i).
    { intros x1 x2 i v Hl. unfold putp, put. cbn [pb po]. rewrite blk_app2. cbn [app blk nth].
      rewrite upd_app2. cbn [upd_nth]. rewrite splice_all by now rewrite map_length. reflexivity. }
    eapply logs_step; [|apply s_extract|].
    { eapply runs_eq; [apply (p_extract m s3 [uninit 16; uninit 16] (P (length m + 1) 0) 0 16); auto; try lia| |].
      - apply Ws3.
      - apply room_of_le. cbn [pb po]. rewrite blk_app2. cbn [blk nth]. rewrite uninit_length. lia.
      - cbn [pb]. lia.
      - reflexivity.
      - cbn [skipn]. fold y. apply (Hput (S_ s3) (uninit 16) [uninit 16] y). now rewrite uninit_length, Ly. }
    cbn [app].
    eapply logs_bind; [|cbv beta|reflexivity].
    { apply (l_isap_rk (m ++ [S_ s3; S_ y; uninit 16]) k RefIsap.ISAP_IV_KA (P (length m + 1) 0)
               (P (length m + 2) 0) kb (Spec.iv_KA I) y 16); auto.
      - apply Hokb. rewrite app_length. lia.
      - now apply has_app.
      - now apply has_app.
      - apply has_blk0. rewrite blk_app2. reflexivity.
      - apply room_of_le. cbn [pb po]. rewrite blk_app2. cbn [blk nth]. rewrite uninit_length. lia.
      - lia. }
    fold ka.
    replace (putp (m ++ [S_ s3; S_ y; uninit 16]) (P (length m + 2) 0) ka) with (m ++ S_ s3 :: [S_ y; S_ ka]).
    2:{ unfold putp, put. cbn [pb po]. rewrite blk_app2. cbn [blk nth]. rewrite upd_app2. cbn [upd_nth].
        rewrite splice_all by now rewrite map_length, uninit_length, Lka. reflexivity. }
    eapply logs_step; [|apply s_over|].
    { apply (p_over m (S_ s3) [S_ y; S_ ka] (P (length m + 2) 0) ka 0 _ _ (ka ++ skipn 16 s3)); auto; try lia.
      - now rewrite Lka.
      - rewrite map_length. apply Ws3.
      - apply has_blk0. rewrite blk_app2. reflexivity.
      - cbn [pb]. lia.
      - now rewrite splice_map, splice_app, Lka. }
    eapply logs_last; [| |apply s_extract].
    { apply (l_permute m _ [S_ y; S_ ka] (i_sH I)); auto; [apply (mo_sH _ _ _ Hmc)|apply (mo_leH _ _ _ Hmc)|].
      split.
      - rewrite app_length, skipn_length, (proj1 Ws3). lia.
      - apply bytes_app. split; auto. apply bytes_skipn, Ws3. }
    fold s4.
    eapply runs_eq.
    - apply (p_extract m s4 [S_ y; S_ ka] tag 0 16); auto; try lia.
      + apply Ws4.
      + now apply room_app.
      + apply Nat.lt_neq, (room_pb m tag 16%nat Htag). lia.
    - reflexivity.
    - cbn [skipn]. rewrite putp_app by (rewrite firstn_length, (proj1 Ws4); now replace (Nat.min 16 sz) with 16%nat by lia).
      rewrite <- !app_assoc. reflexivity.
  Qed.


  Notation pE := (i_perm I (i_sE I)).
  Lemma stream_snoc s n : stream I s (S n) = stream I s n ++ [(iter pE n s, i_sE I)].
  Proof.
    revert s; induction n as [|n IH]; intros s; [reflexivity|].
    change (stream I s (S (S n))) with ((s, i_sE I) :: stream I (pE s) (S n)). rewrite IH, <- (iter_S pE). reflexivity.
  Qed.

  Lemma l_isap_enc (m : mem) k npub mp c kb nb M : okbs m ->
    has m k kb -> has m npub nb -> has m mp M -> has m RefIsap.ISAP_IV_KE (Spec.iv_KE I) ->
    length kb = 16%nat -> length nb = 16%nat -> bytes kb -> bytes nb -> bytes M ->
    room m c (length M) -> fwd_ok c mp (length M) ->
    (0 < length M)%nat ->
    logs (RefIsap.isap_enc LP mc k npub mp (N.of_nat (length M)) c) m tt (putp m c (Spec.isap_enc I kb nb M)) (seen (enc_in I kb nb (length M))).
  Proof.
    intros Hokb Hk Hn HM HivKE Lk Ln Bk Bn BM Hc Hfwd Hpos.
    pose proof (mo_szlo _ _ _ Hmc) as Hz. pose proof (mo_rate _ _ _ Hmc) as Hr.
    pose proof (mo_byte _ _ _ Hmc) as Hr2.
    assert (Hb0 : okb (length m)) by (apply Hokb; lia).
    assert (BivKE : bytes (Spec.iv_KE I)) by (apply (bytes_iv I mc maxr Hmc); lia).
    destruct (wf_rk L I mc maxr okb HL Hmc kb (Spec.iv_KE I) nb (sz - 16)) as [B1 L1]; auto; try lia.
    pose proof (wf_enc_state L I mc maxr okb HL Hmc kb nb Lk Ln Bk Bn) as Ws.
    pose proof (enc_length L I mc maxr okb HL Hmc kb nb M Lk Ln Bk Bn) as Lct.
    unfold RefIsap.isap_enc. rewrite (mo_sz _ _ _ Hmc), Nat2N.id. unfold RefIsap.CRYPTO_NPUBBYTES.
    set (s0 := enc_state I kb nb) in *. set (ct := Spec.isap_enc I kb nb M) in *.
    apply (logs_with_block _ _ _ _ _ (S_ (iter pE (cnt I (length M)) s0))).
    set (K := Spec.isap_rk I kb (Spec.iv_KE I) nb (sz - 16)) in *.
    assert (Elog : enc_in I kb nb (length M) = rk_in I kb (Spec.iv_KE I) nb ++ stream I s0 (cnt I (length M))).
    { unfold enc_in. replace (length M =? 0)%nat with false by lia. reflexivity. }
    rewrite Elog, seen_app. clear Elog.
    eapply logs_bind; [|cbv beta|reflexivity].
    { apply (l_isap_rk (m ++ [uninit sz]) k RefIsap.ISAP_IV_KE npub (P (length m) 0) kb (Spec.iv_KE I) nb (sz - 16));
        auto; try lia; try now apply has_app.
      - apply Hokb. rewrite app_length. lia.
      - apply room_of_le. cbn [pb po]. rewrite blk_mid, uninit_length. lia. }
    fold K.
    replace (putp (m ++ [uninit sz]) (P (length m) 0) K) with (m ++ [S_ K ++ uninit 16]).
    2:{ unfold putp, put. cbn [pb po]. rewrite blk_mid, upd_mid. change (N.to_nat 0) with 0%nat.
        rewrite splice_app, map_length, L1. unfold uninit.
        replace sz with (sz - 16 + 16)%nat at 2 by lia. rewrite repeat_app, skipn_app, repeat_length, Nat.sub_diag.
        rewrite skipn_all2 by (rewrite repeat_length; lia). reflexivity. }
    apply (logs_step _ _ _ tt (m ++ [S_ s0])); [|apply s_over|].
    { eapply runs_eq; [apply (p_over m (S_ K ++ uninit 16) [] npub nb (sz - 16) _ _ s0); auto; try lia| |]; auto.
      - rewrite app_length, map_length, uninit_length. lia.
      - now apply has_app.
      - pose proof (has_pb _ _ _ Hn (nonnil _ _ Ln)). lia.
      - unfold splice. rewrite firstn_app, map_length, L1, Nat.sub_diag. cbn [firstn].
        rewrite firstn_all2 by (rewrite map_length; lia).
        rewrite skipn_all2 by (rewrite app_length, !map_length, uninit_length; lia).
        rewrite !app_nil_r. unfold s0, enc_state. fold K. now rewrite map_app. }
    eapply logs_last; [|apply runs_ret|apply silent_ret].
    apply (logs_for (fun i => N.of_nat (avail I i))
                    (fun i => putp m c (firstn i ct) ++ [S_ (iter pE (cnt I i) s0)])
                    (fun i => seen (stream I s0 (cnt I i))))
      with (a1 := N.of_nat (avail I (length M))).
    - rewrite Nat2N.id. intros i Hi.
      set (mi := putp m c (firstn i ct)).
      assert (Lmi : length mi = length m) by apply putp_length.
      assert (Hri : room m c (length (firstn i ct))).
      { intros j Hj. apply Hc. rewrite firstn_length in Hj. lia. }
      assert (Lfi : length (firstn i ct) = i) by (rewrite firstn_length; lia).
      assert (Wi : wf (iter pE (cnt I i) s0)) by now apply (iter_wf L I mc maxr okb HL Hmc).
      assert (Ha : (avail I i <= rate)%nat) by (unfold avail; destruct (i mod rate =? 0)%nat; lia).
      rewrite <- Lmi.
      exists (seen (if (avail I i =? 0)%nat then [(iter pE (cnt I i) s0, i_sE I)] else [])). split.
      2:{ rewrite (cnt_S I mc maxr Hmc), (cnt_spec I mc maxr Hmc). unfold avail. pose proof (Nat.mod_upper_bound i rate ltac:(lia)).
          destruct (Nat.eqb_spec (i mod rate) 0).
          - change (0 =? 0)%nat with true. cbv iota. now rewrite <- seen_app, stream_snoc.
          - replace (rate - i mod rate =? 0)%nat with false by lia. apply app_nil_r. }
      apply (logs_bind _ _ _ (N.of_nat (if (avail I i =? 0)%nat then rate else avail I i))
               (mi ++ [S_ (iter pE (cnt I (S i)) s0)]) (seen (if (avail I i =? 0)%nat then [(iter pE (cnt I i) s0, i_sE I)] else []))
               _ _ []); [| |apply app_nil_r].
      { apply logs_if. destruct (Nat.eqb_spec (avail I i) 0) as [E0|E0].
        - rewrite E0. change (N.of_nat 0 =? 0) with true. cbv iota.
          eapply logs_last; [| |apply silent_ret].
          + apply (l_permute mi _ [] (i_sE I)); auto; [apply (mo_sE _ _ _ Hmc)|apply (mo_leE _ _ _ Hmc)|].
            now rewrite Lmi.
          + rewrite (rH_SZ I mc maxr Hmc). eapply runs_eq; [apply runs_ret|auto|].
            do 3 f_equal. change (pE (iter pE (cnt I i) s0)) with (iter pE (S (cnt I i)) s0). f_equal.
            rewrite (cnt_S I mc maxr Hmc), (cnt_spec I mc maxr Hmc). unfold avail in E0. destruct (Nat.eqb_spec (i mod rate) 0); auto.
            pose proof (Nat.mod_upper_bound i rate ltac:(lia)). lia.
        - replace (N.of_nat (avail I i) =? 0) with false by lia. eapply logs_eq; [apply logs_ret|auto| |reflexivity].
          do 4 f_equal. rewrite (cnt_S I mc maxr Hmc), (cnt_spec I mc maxr Hmc). unfold avail in E0. destruct (i mod rate =? 0)%nat; auto. lia. }
      assert (Wi1 : wf (iter pE (cnt I (S i)) s0)) by now apply (iter_wf L I mc maxr okb HL Hmc).
      set (si := iter pE (cnt I (S i)) s0) in *.
      set (kb_i := nth (i mod rate) si 0).
      pose proof (Nat.mod_upper_bound i rate ltac:(lia)) as Hmod.
      apply (logs_step _ _ _ tt (putp m c (firstn (S i) ct) ++ [S_ si])).
      { apply (runs_with_block _ _ _ _ _ (S_ [kb_i])).
        set (MM := mi ++ [S_ si]).
        assert (LMM : length MM = S (length mi)) by (unfold MM; rewrite app_length; cbn [length]; lia).
        apply (runs_bind _ _ _ tt (MM ++ [S_ [kb_i]])).
        { unfold MM at 2. rewrite <- app_assoc. cbn [app].
          eapply runs_eq; [apply (p_extract mi si [uninit 1] (P (length MM) 0) (i mod rate) 1)| |]; auto.
          - rewrite (rH_SZ I mc maxr Hmc). now rewrite Nat2N.inj_mod.
          - apply Wi1.
          - apply room_of_le. cbn [pb po]. change (mi ++ S_ si :: [uninit 1]) with (mi ++ [S_ si] ++ [uninit 1]).
            rewrite app_assoc. fold MM. rewrite blk_mid. cbn. lia.
          - cbn [pb]. lia.
          - lia.
          - destruct Wi1. lia.
          - change (mi ++ S_ si :: [uninit 1]) with (mi ++ [S_ si] ++ [uninit 1]). rewrite app_assoc. fold MM.
            unfold putp, put. cbn [pb po]. rewrite blk_mid, upd_mid. do 2 f_equal.
            rewrite splice_all.
            + rewrite (skipn_cons_nth si (i mod rate) 0) by (destruct Wi1; lia). reflexivity.
            + rewrite map_length, firstn_length, skipn_length, uninit_length. destruct Wi1. lia. }
        eapply runs_bind.
        { apply runs_load, rd1_app, rd1_app. unfold mi. rewrite rd1_putp by auto. rewrite Lfi.
          destruct (within c i (padd mp (N.of_nat i))) eqn:Ew; [|now apply HM].
          apply within_inv in Ew. destruct Ew as (j & Hj & Ew). now destruct (Hfwd j i (conj Hj Hi)). }
        eapply runs_bind.
        { apply runs_load. apply (rd1_blk _ _ [kb_i] 0); [apply blk_mid|]. cbn. lia. }
        eapply runs_eq.
        - apply runs_store1. apply inside_app, inside_app. unfold mi. rewrite inside_putp by auto. now apply Hc.
        - reflexivity.
        - assert (Hin : room mi (padd c (N.of_nat i)) 1).
          { intros j Hj. replace j with 0%nat by lia. change (N.of_nat 0) with 0. rewrite padd_0.
            unfold mi. rewrite inside_putp by auto. now apply Hc. }
          rewrite putp_app by (cbn [length]; unfold MM; now apply room_app).
          unfold MM. rewrite putp_app by auto. f_equal. f_equal. unfold mi.
          rewrite (firstn_snoc ct i 0) by lia.
          rewrite <- putp_app_bytes by (rewrite app_length, Lfi; intros j Hj; apply Hc; cbn [length] in Hj; lia).
          rewrite Lfi. f_equal. f_equal. unfold ct. rewrite (isap_enc_spec L I mc maxr okb HL Hmc) by auto.
          rewrite (nth_map_lt _ _ _ 0%nat 0) by now rewrite seq_length. rewrite seq_nth by auto. cbn [Nat.add].
          f_equal. unfold kb_i, si, ks_byte. now rewrite (cnt_S I mc maxr Hmc). }
      { apply calls_with_block. intros kp. apply silent_bind; [apply s_extract|]. intros _.
        apply silent_bind; [apply silent_load|]. intros. apply silent_bind; [apply silent_load|]. intros. apply silent_store. }
      eapply logs_eq; [apply logs_ret| | |reflexivity].
      + rewrite (avail_S I mc maxr Hmc). rewrite (sub64_small); destruct (Nat.eqb_spec (avail I i) 0); lia.
      + reflexivity.
    - unfold cnt. rewrite Nat.div_small by lia. reflexivity.
    - unfold avail. rewrite Nat.mod_0_l by lia. reflexivity.
    - cbn [firstn]. rewrite putp_nil. unfold cnt. rewrite Nat.div_small by lia. reflexivity.
    - now rewrite Nat2N.id.
    - rewrite Nat2N.id, firstn_all2 by lia. reflexivity.
    - now rewrite Nat2N.id.
  Qed.


  Lemma silent_load_ull cf p : silent (RefIsap.load_ull cf p).
  Proof. apply silent_bind; [apply silent_loadn|]. intros. apply silent_ret. Qed.

  Variable cf : cfg.

  Lemma l_enc mm c clen m ad npub k K Nn A T :
    (forall b, (length mm <= b)%nat -> okb b) ->
    enc_valid cf (ref_consts mc) mm c clen m ad npub k K Nn A T ->
    logs (RefIsap.crypto_aead_encrypt LP mc cf c clen m (N.of_nat (length T)) ad (N.of_nat (length A)) npub k) mm 0%Z
         (putp (putp mm clen (word_le 8 (N.of_nat (length T) + 16))) c (Spec.isap_encrypt I K Nn A T))
         (seen (enc_in I K Nn (length T) ++ mac_in I K Nn A (Spec.isap_enc I K Nn T))).
  Proof.
    intros Hok V. destruct V as [Vc [[Bk Hk] Lk] [[Bn Hn] Ln] [[Ba Ha] La] [[Bt Ht] Lt] [Rc Pc] [Rl [Pl Al]]
      (D1 & D2 & D3 & D4 & D5) (D6 & D7 & D8) Hf].
    unfold RefIsap.crypto_aead_encrypt, RefIsap.ISAP_TAG_SZ.
    rewrite u64_small by lia.
    set (m1 := putp mm clen (word_le 8 (N.of_nat (length T) + 16))).
    assert (Hl8 : room mm clen (length (word_le 8 (N.of_nat (length T) + 16)))) by now rewrite word_le_length.
    eapply logs_step; [apply runs_store_ull; auto|apply silent_storen|]. fold m1.
    assert (F1 : forall q bs, has mm q bs -> disj clen 8 q (length bs) -> has m1 q bs).
    { intros q bs H1 H2. apply has_putp_disj; rewrite ?word_le_length; auto. }
    assert (R1 : forall q n, room mm q n -> room m1 q n) by (intros; now apply room_putp).
    assert (C1 : consts_ok (ref_consts mc) m1) by now apply consts_putp.
    destruct (ref_ivs I mc maxr Hmc m1 C1) as (I1 & I2 & I3).
    assert (O1 : okbs m1) by (apply (okbs_putp okb); exact Hok).
    set (ct := Spec.isap_enc I K Nn T).
    assert (Lct : length ct = length T) by now apply (enc_length L I mc maxr okb HL Hmc).
    assert (Bct : bytes ct) by now apply (enc_bytes L I mc maxr okb HL Hmc).
    assert (Rc1 : room m1 c (length ct)).
    { apply R1. intros i Hi. apply Rc. lia. }
    rewrite seen_app. fold ct.
    eapply (logs_bind _ _ _ tt (putp m1 c ct)); [|cbv beta|reflexivity].
    { apply logs_if. destruct (N.ltb_spec 0 (N.of_nat (length T))) as [E|E].
      - apply l_isap_enc; auto; try lia.
        + apply F1; auto. now rewrite Lk.
        + apply F1; auto. now rewrite Ln.
        + now rewrite Lct in Rc1.
      - assert (E0 : length T = 0%nat) by lia. unfold enc_in. rewrite E0. change (0 =? 0)%nat with true. cbv iota.
        destruct ct; [|cbn [length] in Lct; lia]. rewrite putp_nil. apply logs_ret. }
    set (m2 := putp m1 c ct).
    assert (F2 : forall q bs, has m1 q bs -> disj c (length T + 16) q (length bs) -> has m2 q bs).
    { intros q bs H1 H2. apply has_putp_disj; auto. apply (disj_sub _ _ _ _ _ _ H2); lia. }
    assert (C2 : consts_ok (ref_consts mc) m2) by now apply consts_putp.
    destruct (ref_ivs I mc maxr Hmc m2 C2) as (J1 & J2 & J3).
    eapply logs_last; [|eapply runs_eq; [apply runs_ret|reflexivity|]|apply silent_ret].
    - rewrite <- Lct. apply l_isap_mac with (kb := K) (nb := Nn); auto.
      + now apply (okbs_putp okb).
      + apply F2; [apply F1; auto|]; now rewrite Lk.
      + apply F2; [apply F1; auto|]; now rewrite Ln.
      + now apply has_putp_same.
      + apply room_putp; auto. rewrite Lct. apply (room_sub m1 c (length T + 16)); [now apply R1|lia].
    - unfold Spec.isap_encrypt. fold ct. cbv zeta. unfold m2. rewrite putp_app_bytes; auto.
      destruct (mac_length L I mc maxr okb HL Hmc K Nn A ct) as [_ Lm]; auto.
      rewrite app_length, Lm, Lct. now apply R1.
  Qed.

  Lemma l_dec mm m mlen c ad npub k K Nn A Y :
    (forall b, (length mm <= b)%nat -> okb b) ->
    dec_valid cf (ref_consts mc) mm m mlen c ad npub k K Nn A Y ->
    let m1 := putp mm mlen (word_le 8 (N.of_nat (length Y) - 16)) in
    logs (RefIsap.crypto_aead_decrypt LP mc cf m mlen c (N.of_nat (length Y)) ad (N.of_nat (length A)) npub k) mm
         (match Spec.isap_decrypt I K Nn A Y with Some _ => 0%Z | None => (-1)%Z end)
         (match Spec.isap_decrypt I K Nn A Y with Some T => putp m1 m T | None => m1 end)
         (seen (mac_in I K Nn A (firstn (length Y - 16) Y) ++
                match Spec.isap_decrypt I K Nn A Y with Some _ => enc_in I K Nn (length Y - 16) | None => [] end)).
  Proof.
    intros Hok V. cbv zeta. destruct V as [Vc [[Bk Hk] Lk] [[Bn Hn] Ln] [[Ba Ha] La] [[By Hy] [Ly Gy]] [Rm Pm] [Rl [Pl Al]]
      (D1 & D2 & D3 & D4 & D5) (D6 & D7 & D8) Hf].
    unfold RefIsap.crypto_aead_decrypt, RefIsap.ISAP_TAG_SZ.
    rewrite sub64_small by lia.
    set (n := (length Y - 16)%nat) in *. replace (N.of_nat (length Y) - 16) with (N.of_nat n) in * by lia.
    set (m1 := putp mm mlen (word_le 8 (N.of_nat n))).
    assert (Hl8 : room mm mlen (length (word_le 8 (N.of_nat n)))) by now rewrite word_le_length.
    eapply logs_step; [apply runs_store_ull; auto|apply silent_storen|]. fold m1.
    assert (F1 : forall q bs, has mm q bs -> disj mlen 8 q (length bs) -> has m1 q bs).
    { intros q bs H1 H2. apply has_putp_disj; rewrite ?word_le_length; auto. }
    assert (R1 : forall q j, room mm q j -> room m1 q j) by (intros; now apply room_putp).
    assert (C1 : consts_ok (ref_consts mc) m1) by now apply consts_putp.
    assert (O1 : okbs m1) by (apply (okbs_putp okb); exact Hok).
    assert (Hml : has m1 mlen (word_le 8 (N.of_nat n))) by now apply has_putp_same.
    set (C := firstn n Y). set (tg := skipn n Y).
    assert (LC : length C = n) by (unfold C; rewrite firstn_length; lia).
    assert (Ltg : length tg = 16%nat) by (unfold tg; rewrite skipn_length; lia).
    assert (BC : bytes C) by now apply bytes_firstn.
    assert (HY1 : has m1 c Y) by now apply F1.
    assert (HC1 : has m1 c C) by now apply has_firstn.
    assert (Htg1 : has m1 (padd c (N.of_nat n)) tg) by now apply has_skipn.
    assert (Hk1 : has m1 k K) by (apply F1; auto; now rewrite Lk).
    assert (Hn1 : has m1 npub Nn) by (apply F1; auto; now rewrite Ln).
    assert (Ha1 : has m1 ad A) by (apply F1; auto).
    set (T := Spec.isap_mac I K Nn A C).
    destruct (mac_length L I mc maxr okb HL Hmc K Nn A C) as [BT LT]; auto. fold T in BT, LT.
    assert (Dec : Spec.isap_decrypt I K Nn A Y = if list_eq_dec N.eq_dec tg T then Some (Spec.isap_enc I K Nn C) else None).
    { unfold Spec.isap_decrypt. replace (length Y <? 16)%nat with false by lia. reflexivity. }
    rewrite Dec. clear Dec.
    set (fin := if list_eq_dec N.eq_dec tg T then putp m1 m (Spec.isap_enc I K Nn C) else m1).
    replace (match (if list_eq_dec N.eq_dec tg T then Some (Spec.isap_enc I K Nn C) else None) with
             | Some T => putp m1 m T | None => m1 end) with fin by (unfold fin; destruct (list_eq_dec _ _ _); auto).
    replace (match (if list_eq_dec N.eq_dec tg T then Some (Spec.isap_enc I K Nn C) else None) with
             | Some _ => enc_in I K Nn n | None => [] end) with (if list_eq_dec N.eq_dec tg T then enc_in I K Nn n else [])
      by (destruct (list_eq_dec _ _ _); auto).
    rewrite seen_app. fold C.
    apply (logs_with_block _ _ _ _ _ (map Some T)).
    set (m2 := m1 ++ [map Some T]).
    assert (F2 : forall q bs, has m1 q bs -> has m2 q bs) by (intros; now apply has_app).
    assert (C2 : consts_ok (ref_consts mc) m2) by (apply consts_app; [auto|apply (ref_nonempty mc)]).
    eapply logs_step; [apply (runs_load_ull cf mlen (N.of_nat n)); auto; [now apply has_app|lia]|apply silent_load_ull|].
    assert (C1' : consts_ok (ref_consts mc) (m1 ++ [uninit 16])) by (apply consts_app; [auto|apply (ref_nonempty mc)]).
    destruct (ref_ivs I mc maxr Hmc _ C1') as (I1 & I2 & I3).
    eapply (logs_bind _ _ _ tt m2); [|cbv beta|reflexivity].
    { rewrite <- LC. eapply logs_eq; [apply l_isap_mac with (kb := K) (nb := Nn)| | |reflexivity]; auto.
      - now apply (okbs_app okb).
      - now apply has_app.
      - now apply has_app.
      - now apply has_app.
      - now apply has_app.
      - apply room_of_le. cbn [pb po]. rewrite blk_mid, uninit_length. lia.
      - fold T. unfold putp, put. cbn [pb po]. rewrite blk_mid, upd_mid. change (N.to_nat 0) with 0%nat.
        unfold m2. do 2 f_equal. apply splice_all. now rewrite map_length, uninit_length, LT. }
    assert (HT2 : has m2 (P (length m1) 0) T) by (apply has_blk0, blk_mid).
    apply (logs_step _ _ _ (eqs 16 T tg) m2).
    { apply (runs_for (fun j => eqs j T tg) (fun _ => m2)); auto.
      change (N.to_nat 16) with 16%nat. intros j Hj.
      eapply runs_bind; [apply runs_load, HT2; lia|].
      eapply runs_bind; [apply (runs_load_ull cf mlen (N.of_nat n)); auto; lia|].
      eapply runs_bind.
      - rewrite u64_small by lia. rewrite <- padd_padd. apply runs_load, (F2 _ _ Htg1). lia.
      - cbn [eqs]. apply runs_ret. }
    { apply silent_for. intros i a. apply silent_bind; [apply silent_load|]. intros. apply silent_bind; [apply silent_load_ull|]. intros.
      apply silent_bind; [apply silent_load|]. intros. apply silent_ret. }
    apply logs_if. unfold fin.
    assert (Heq : eqs 16 T tg = 16 <-> T = tg) by (apply (eqs_eq T tg 16); auto).
    destruct (list_eq_dec N.eq_dec tg T) as [E|E].
    - replace (eqs 16 T tg =? 16) with true by (symmetry; apply N.eqb_eq, Heq; auto).
      eapply logs_step; [apply (runs_load_ull cf mlen (N.of_nat n)); auto; lia|apply silent_load_ull|].
      pose proof (enc_length L I mc maxr okb HL Hmc K Nn C Lk Ln Bk Bn) as Le.
      eapply logs_last; [|eapply runs_eq; [apply runs_ret|reflexivity|reflexivity]|apply silent_ret].
      apply logs_if. destruct (N.ltb_spec 0 (N.of_nat n)) as [Ez|Ez].
      + eapply logs_step; [apply (runs_load_ull cf mlen (N.of_nat n)); auto; lia|apply silent_load_ull|].
        destruct (ref_ivs I mc maxr Hmc _ C2) as (J1 & J2 & J3). rewrite <- LC.
        eapply logs_eq; [apply l_isap_enc with (kb := K) (nb := Nn)| | |reflexivity]; auto.
        * now apply (okbs_app okb).
        * rewrite LC. apply room_app. now apply R1.
        * now rewrite LC.
        * lia.
        * unfold m2. apply putp_app. rewrite Le, LC. now apply R1.
      + assert (E0 : n = 0%nat) by lia. unfold m2, enc_in. rewrite E0. change (0 =? 0)%nat with true. cbv iota.
        destruct (Spec.isap_enc I K Nn C); [|cbn [length] in Le; lia]. rewrite putp_nil. apply logs_ret.
    - replace (eqs 16 T tg =? 16) with false.
      + apply logs_ret.
      + symmetry. apply N.eqb_neq. intros H. apply Heq in H. auto.
  Qed.

End Probe.
