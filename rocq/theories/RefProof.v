(* The memory-level model of the reference implementation computes the specification. Proofs only. *)
From Verif Require Import Base Prog SpecPerm Words RefPerm AsconProof KeccakProof Mem Vocab MemProof RefLib.
From Verif Require Spec RefIsap.
From Verif Require Import Sponge.
Import Spec(inst, i_sz, i_rate, i_sH, i_sB, i_sE, i_sK, i_perm, xorp, xorz).
Import RefIsap(plib, macros, ISAP_rH, ISAP_sH, ISAP_sB, ISAP_sE, ISAP_sK, ISAP_STATE_SZ).
Open Scope N_scope.
Open Scope cm_scope.

(* The macros of isap.h describe the instance. *)
Record mac_ok (I : inst) (mc : macros) (maxr : nat) : Prop := {
  mo_maxr : (maxr <= 20)%nat;
  mo_sz : ISAP_STATE_SZ mc = N.of_nat (i_sz I);
  mo_rH : ISAP_rH mc = N.of_nat (8 * i_rate I);
  mo_sH : ISAP_sH mc = N.of_nat (i_sH I);
  mo_sB : ISAP_sB mc = N.of_nat (i_sB I);
  mo_sE : ISAP_sE mc = N.of_nat (i_sE I);
  mo_sK : ISAP_sK mc = N.of_nat (i_sK I);
  mo_leH : (i_sH I <= maxr)%nat;
  mo_leB : (i_sB I <= maxr)%nat;
  mo_leE : (i_sE I <= maxr)%nat;
  mo_leK : (i_sK I <= maxr)%nat;
  mo_rate : (0 < i_rate I < i_sz I)%nat;
  mo_szlo : (32 < i_sz I)%nat;
  mo_byte : (i_rate I < 32)%nat }.

Lemma blk_mid (m rest : mem) x : blk (m ++ x :: rest) (length m) = x.
Proof. unfold blk. rewrite app_nth2, Nat.sub_diag by lia. reflexivity. Qed.

Lemma upd_mid (m rest : mem) x y : upd_nth (m ++ x :: rest) (length m) y = m ++ y :: rest.
Proof. rewrite <- (Nat.add_0_r (length m)), upd_app2. reflexivity. Qed.

Lemma has_pb m p bs : has m p bs -> bs <> [] -> (pb p < length m)%nat.
Proof.
  intros H Hn. destruct bs as [|b bs]; [congruence|]. specialize (H 0%nat). cbn [length] in H.
  assert (E := H ltac:(lia)). unfold rd1 in E. destruct (inside m (padd p (N.of_nat 0))) eqn:Ei; [|discriminate].
  apply inside_pb in Ei. exact Ei.
Qed.

Lemma room_pb m p n : room m p n -> (0 < n)%nat -> (pb p < length m)%nat.
Proof. intros H Hn. specialize (H 0%nat Hn). apply inside_pb in H. exact H. Qed.

Lemma nonnil {A} (l : list A) n : length l = S n -> l <> [].
Proof. intros H ->. discriminate. Qed.

Section Ref.
  Variables (L : plib) (I : inst) (mc : macros) (maxr : nat) (okb : nat -> Prop).
  Hypothesis HL : lib_ok L (i_sz I) (i_perm I) maxr okb.
  Hypothesis Hmc : mac_ok I mc maxr.
  Notation sz := (i_sz I).
  Notation rate := (i_rate I).
  Notation S_ s := (map (@Some N) s).
  Notation state m := (P (length m) 0).

  Definition wf (s : list N) : Prop := length s = sz /\ bytes s.
  Definition okbs (m : mem) : Prop := forall b, (length m <= b)%nat -> okb b.

  Lemma okbs_app (m : mem) l : okbs m -> okbs (m ++ l).
  Proof. intros H b Hb. apply H. rewrite app_length in Hb. lia. Qed.
  Lemma okbs_putp (m : mem) p bs : okbs m -> okbs (putp m p bs).
  Proof. intros H b Hb. apply H. now rewrite putp_length in Hb. Qed.

  Lemma wf_perm r s : (r <= maxr)%nat -> wf s -> wf (i_perm I r s).
  Proof. intros Hr [H1 H2]. destruct (lo_wf _ _ _ _ _ HL r s Hr H2 H1). split; auto. Qed.
  Lemma wf_addat s o bs : bytes bs -> wf s -> wf (addat s o bs).
  Proof. intros Hb [H1 H2]. split; [now rewrite addat_length | now apply bytes_addat]. Qed.
  Lemma wf_xorp s bs : bytes bs -> wf s -> wf (xorp s bs).
  Proof. apply (wf_addat s 0). Qed.

  Lemma r_permute (m : mem) s (rest : mem) r n : n = N.of_nat r -> (r <= maxr)%nat -> okb (length m) -> wf s ->
    runs (RefIsap.Permutation_Permute_Nrounds L (state m) n) (m ++ S_ s :: rest) tt
         (m ++ S_ (i_perm I r s) :: rest).
  Proof.
    intros -> Hr Hb [H1 H2]. unfold RefIsap.Permutation_Permute_Nrounds.
    pose proof (mo_maxr _ _ _ Hmc). rewrite u32_small by lia.
    eapply runs_eq; [apply (lo_perm _ _ _ _ _ HL _ _ s); auto; apply blk_mid| |]; auto. apply upd_mid.
  Qed.

  Lemma r_add (m : mem) s (rest : mem) d bs o n off : off = N.of_nat o -> n = N.of_nat (length bs) ->
    length s = sz -> has (m ++ S_ s :: rest) d bs -> pb d <> length m -> (o < sz)%nat -> (o + length bs <= sz)%nat ->
    runs (RefIsap.Permutation_AddBytes L (state m) d off n) (m ++ S_ s :: rest) tt
         (m ++ S_ (addat s o bs) :: rest).
  Proof.
    intros -> -> H1 H2 H3 H4 H5. unfold RefIsap.Permutation_AddBytes.
    pose proof (lo_sz _ _ _ _ _ HL). rewrite !u32_small by lia.
    eapply runs_eq; [apply (lo_add _ _ _ _ _ HL _ _ s); auto; apply blk_mid| |]; auto. apply upd_mid.
  Qed.

  Lemma r_init (m : mem) n (rest : mem) x : length x = sz -> n = state m ->
    runs (RefIsap.Permutation_Initialize L n) (m ++ x :: rest) tt (m ++ S_ (repeat 0 sz) :: rest).
  Proof.
    intros H ->. eapply runs_eq; [apply (lo_init _ _ _ _ _ HL); now rewrite blk_mid| |]; auto. apply upd_mid.
  Qed.

  Lemma r_extract (m : mem) s (rest : mem) d o k off n : off = N.of_nat o -> n = N.of_nat k ->
    length s = sz -> room (m ++ S_ s :: rest) d k -> pb d <> length m -> (o < sz)%nat -> (o + k <= sz)%nat ->
    runs (RefIsap.Permutation_ExtractBytes L (state m) d off n) (m ++ S_ s :: rest) tt
         (putp (m ++ S_ s :: rest) d (firstn k (skipn o s))).
  Proof.
    intros -> -> H1 H2 H3 H4 H5. unfold RefIsap.Permutation_ExtractBytes.
    pose proof (lo_sz _ _ _ _ _ HL). rewrite !u32_small by lia.
    apply (lo_extract _ _ _ _ _ HL); auto. apply blk_mid.
  Qed.

  Lemma r_over (m : mem) x (rest : mem) d bs o off n s : off = N.of_nat o -> n = N.of_nat (length bs) ->
    length x = sz -> has (m ++ x :: rest) d bs -> pb d <> length m -> (o < sz)%nat -> (o + length bs <= sz)%nat ->
    splice x o (S_ bs) = S_ s ->
    runs (RefIsap.Permutation_OverwriteBytes L (state m) d off n) (m ++ x :: rest) tt (m ++ S_ s :: rest).
  Proof.
    intros -> -> H1 H2 H3 H4 H5 H6. unfold RefIsap.Permutation_OverwriteBytes.
    pose proof (lo_sz _ _ _ _ _ HL). rewrite !u32_small by lia.
    eapply runs_eq; [apply (lo_over _ _ _ _ _ HL _ _ _ _ _ s); auto; now rewrite blk_mid| |]; auto.
    unfold putp, put. cbn [pb po]. now rewrite blk_mid, upd_mid, Nat2N.id, H6.
  Qed.

  Lemma r_add_local (m : mem) s (rest : mem) v o off : off = N.of_nat o -> length s = sz -> (o < sz)%nat ->
    runs (RefIsap.add_local L (state m) v off) (m ++ S_ s :: rest) tt (m ++ S_ (addat s o [v]) :: rest).
  Proof.
    intros -> Hs Ho. unfold RefIsap.add_local.
    apply (runs_with_block _ _ _ _ _ (S_ [v])).
    set (M := m ++ S_ s :: rest).
    assert (E : wr1 (M ++ [uninit 1]) (P (length M) 0) v = Some (M ++ [S_ [v]])).
    { unfold wr1, inside. cbn [pb po]. rewrite blk_mid. cbn [length uninit repeat].
      change (0 <? N.of_nat 1) with true. cbv iota. now rewrite upd_mid. }
    eapply runs_bind; [apply runs_store, E|]. unfold M.
    rewrite <- !app_assoc, <- !app_comm_cons.
    apply r_add; auto.
    - rewrite app_comm_cons, app_assoc. apply has_blk0. apply blk_mid.
    - cbn [pb]. rewrite app_length. cbn [length]. lia.
    - cbn [length]. lia.
  Qed.

  (* ---------- isap_rk ---------- *)

  Lemma zpad_add x y : length x = 16%nat -> length y = 8%nat -> addat (addat (repeat 0 sz) 0 x) 16 y = Spec.zpad I (x ++ y).
  Proof.
    intros Hx Hy. pose proof (mo_szlo _ _ _ Hmc) as Hz. unfold Spec.zpad.
    apply (nth_ext_le _ _ 0).
    - rewrite !addat_length, !app_length, !repeat_length. lia.
    - intros i Hi. rewrite !addat_length, repeat_length in Hi.
      rewrite !nth_addat, addat_length, repeat_length. replace (i <? sz)%nat with true by lia.
      change (0 <=? i)%nat with true. cbv iota. rewrite nth_repeat, N.lxor_0_l, Nat.sub_0_r.
      destruct (Nat.leb_spec 16 i).
      + rewrite (nth_overflow x), N.lxor_0_l by lia.
        destruct (Nat.ltb_spec (i - 16) 8).
        * rewrite app_nth1 by (rewrite app_length; lia). rewrite app_nth2, Hx by lia. reflexivity.
        * rewrite (nth_overflow y) by lia. rewrite app_nth2, nth_repeat by (rewrite app_length; lia). reflexivity.
      + rewrite N.lxor_0_r. rewrite app_nth1 by (rewrite app_length; lia). now rewrite app_nth1 by lia.
  Qed.

  Lemma wf_zpad x : bytes x -> (length x <= sz)%nat -> wf (Spec.zpad I x).
  Proof.
    intros Hb Hl. unfold Spec.zpad. split.
    - rewrite app_length, repeat_length. lia.
    - apply bytes_app. split; auto. apply bytes_repeat. lia.
  Qed.

  Notation rk_fold := (fold_left (fun s b => i_perm I (i_sB I) (xorp s (Spec.first_bit b)))).

  Lemma bytes_first_bit b : bytes (Spec.first_bit b).
  Proof. destruct b; repeat constructor. Qed.

  Lemma wf_rk_fold Y s : wf s -> wf (rk_fold Y s).
  Proof.
    revert s; induction Y as [|b Y IH]; intros s H; cbn [fold_left]; auto. apply IH, wf_perm.
    - apply (mo_leB _ _ _ Hmc).
    - apply wf_xorp; auto. apply bytes_first_bit.
  Qed.

  Lemma uninit_length n : length (uninit n) = n.
  Proof. apply repeat_length. Qed.

  Lemma r_isap_rk (m : mem) k ivp inp out kb ivb Y n outlen :
    okb (length m) -> outlen = N.of_nat n ->
    has m k kb -> has m ivp ivb -> has m inp Y ->
    length kb = 16%nat -> length ivb = 8%nat -> length Y = 16%nat -> bytes kb -> bytes ivb -> bytes Y ->
    room m out n -> (0 < n <= sz)%nat ->
    runs (RefIsap.isap_rk L mc k ivp inp 16 out outlen) m tt (putp m out (Spec.isap_rk I kb ivb Y n)).
  Proof.
    intros Hokb -> Hk Hiv HY Lk Liv LY Bk Biv BY Hout Hn.
    pose proof (mo_szlo _ _ _ Hmc) as Hz.
    unfold RefIsap.isap_rk. rewrite (mo_sz _ _ _ Hmc), Nat2N.id.
    set (s0 := i_perm I (i_sK I) (Spec.zpad I (kb ++ ivb))).
    set (bits := Spec.msb_bits Y).
    assert (Hbits : length bits = 128%nat) by (unfold bits; rewrite msb_bits_length, LY; reflexivity).
    set (bl := nth 127 bits false).
    set (s1 := rk_fold (firstn 127 bits) s0).
    set (s2 := i_perm I (i_sK I) (xorp s1 (Spec.first_bit bl))).
    assert (Ws0 : wf s0).
    { apply wf_perm; [apply (mo_leK _ _ _ Hmc)|]. apply wf_zpad; [now apply bytes_app|rewrite app_length; lia]. }
    assert (Ws1 : wf s1) by now apply wf_rk_fold.
    assert (Es2 : Spec.isap_rk I kb ivb Y n = firstn n s2).
    { unfold Spec.isap_rk. fold s0. fold bits. rewrite <- (firstn_skipn 127 bits) at 1.
      replace (skipn 127 bits) with [bl].
      - now rewrite rk_absorb_snoc.
      - unfold bl. rewrite (skipn_cons_nth bits 127 false) by lia. rewrite skipn_all2 by lia. reflexivity. }
    rewrite Es2.
    assert (Hpb : forall p bs x, has m p bs -> length bs = S x -> pb p <> length m).
    { intros p bs x H1 H2. pose proof (has_pb _ _ _ H1 (nonnil _ _ H2)). lia. }
    apply (runs_with_block _ _ _ _ _ (S_ s2)).
    eapply runs_bind; [apply r_init; [apply uninit_length|reflexivity]|].
    eapply runs_bind.
    { apply (r_add m (repeat 0 sz) [] k kb 0); auto; try lia.
      - now rewrite Lk.
      - apply repeat_length.
      - now apply has_app.
      - now apply (Hpb _ _ 15%nat Hk). }
    eapply runs_bind.
    { apply (r_add m _ [] ivp ivb 16); auto; try lia.
      - now rewrite Liv.
      - now rewrite addat_length, repeat_length.
      - now apply has_app.
      - now apply (Hpb _ _ 7%nat Hiv). }
    rewrite zpad_add by auto.
    eapply runs_bind.
    { apply (r_permute m _ [] (i_sK I)); auto; [apply (mo_sK _ _ _ Hmc)|apply (mo_leK _ _ _ Hmc)|].
      apply wf_zpad; [now apply bytes_app|rewrite app_length; lia]. }
    fold s0. eapply runs_bind.
    { apply (runs_for (fun _ => tt) (fun j => m ++ [S_ (rk_fold (firstn j bits) s0)])) with (a1 := tt) (m1 := m ++ [S_ s1]); auto.
      change (N.to_nat (sub64 (u64 (16 * 8)) 1)) with 127%nat. intros j Hj. cbv zeta.
      eapply runs_bind.
      - apply runs_load, rd1_app. replace (N.of_nat j / 8) with (N.of_nat (j / 8)) by lia. apply HY. lia.
      - rewrite first_bit_val. rewrite <- nth_msb_bits by lia. fold bits.
        eapply runs_bind.
        + apply (r_add_local m _ [] _ 0); auto; [|lia]. apply (proj1 (wf_rk_fold (firstn j bits) s0 Ws0)).
        + rewrite addat_0. rewrite (firstn_snoc bits j false) by lia. rewrite fold_left_app. cbn [fold_left].
          apply r_permute; auto; [apply (mo_sB _ _ _ Hmc)|apply (mo_leB _ _ _ Hmc)|].
          apply (wf_xorp _ (Spec.first_bit _)); [apply bytes_first_bit|now apply wf_rk_fold]. }
    eapply runs_bind.
    { apply runs_load, rd1_app. change (sub64 16 1) with (N.of_nat 15). apply HY. lia. }
    assert (Ebl : u8 (N.shiftl (N.land (nth 15 Y 0) 1) 7) = if bl then 0x80 else 0).
    { rewrite <- (N.shiftr_0_r (nth 15 Y 0)), first_bit_val. unfold bl, bits. rewrite nth_msb_bits by lia.
      reflexivity. }
    rewrite Ebl.
    eapply runs_bind; [apply (r_add_local m s1 [] _ 0); auto; [apply Ws1|lia]|].
    rewrite addat_0. change [if bl then 0x80 else 0] with (Spec.first_bit bl).
    eapply runs_bind.
    { apply (r_permute m _ [] (i_sK I)); auto; [apply (mo_sK _ _ _ Hmc)|apply (mo_leK _ _ _ Hmc)|].
      apply wf_xorp; auto. apply bytes_first_bit. }
    fold s2. assert (Ws2 : wf s2).
    { apply wf_perm; [apply (mo_leK _ _ _ Hmc)|]. apply wf_xorp; auto. apply bytes_first_bit. }
    eapply runs_eq.
    - apply (r_extract m s2 [] out 0 n); auto; try lia.
      + apply Ws2.
      + now apply room_app.
      + apply Nat.lt_neq, (room_pb m out n Hout). lia.
    - reflexivity.
    - cbn [skipn]. apply putp_app. rewrite firstn_length, (proj1 Ws2). now replace (Nat.min n sz) with n by lia.
  Qed.

  Lemma wf_rk kb ivb Y n : bytes kb -> bytes ivb -> length kb = 16%nat -> length ivb = 8%nat ->
    (0 < length Y)%nat -> (n <= sz)%nat ->
    bytes (Spec.isap_rk I kb ivb Y n) /\ length (Spec.isap_rk I kb ivb Y n) = n.
  Proof.
    intros Bk Biv Lk Liv LY Hn. pose proof (mo_szlo _ _ _ Hmc) as Hz. unfold Spec.isap_rk.
    assert (W : wf (Spec.rk_absorb I (i_perm I (i_sK I) (Spec.zpad I (kb ++ ivb))) (Spec.msb_bits Y))).
    { destruct (Spec.msb_bits Y) as [|b l _] using rev_ind.
      - apply wf_perm; [apply (mo_leK _ _ _ Hmc)|]. apply wf_zpad; [now apply bytes_app|rewrite app_length; lia].
      - rewrite rk_absorb_snoc. apply wf_perm; [apply (mo_leK _ _ _ Hmc)|]. apply wf_xorp; [apply bytes_first_bit|].
        apply wf_rk_fold, wf_perm; [apply (mo_leK _ _ _ Hmc)|].
        apply wf_zpad; [now apply bytes_app|rewrite app_length; lia]. }
    destruct W as [W1 W2]. split; [now apply bytes_firstn|]. rewrite firstn_length. lia.
  Qed.

  (* ---------- isap_mac ---------- *)

  Lemma rH_SZ : RefIsap.ISAP_rH_SZ mc = N.of_nat rate.
  Proof. unfold RefIsap.ISAP_rH_SZ. rewrite (mo_rH _ _ _ Hmc). lia. Qed.

  Lemma sub64_small a b : b <= a -> a < 2 ^ 64 -> sub64 a b = a - b.
  Proof.
    intros H1 H2. unfold sub64. replace (a + 2 ^ 64 - b) with (a - b + 1 * 2 ^ 64) by lia.
    rewrite N.mod_add by lia. apply N.mod_small. lia.
  Qed.

  Notation pH := (i_perm I (i_sH I)).
  Notation lz := (lazy_step rate pH).
  Notation eg := (eager_step rate pH).

  Lemma wf_pH s : wf s -> wf (pH s).
  Proof. apply wf_perm, (mo_leH _ _ _ Hmc). Qed.
  Lemma wf_add1 s o b : b < 256 -> wf s -> wf (addat s o [b]).
  Proof. intros Hb. apply wf_addat. now repeat constructor. Qed.

  (* One lazy step in memory. *)
  Lemma r_lazy_perm (m : mem) s (rest : mem) a : okb (length m) -> wf s -> (a <= rate)%nat ->
    runs (if_ (N.of_nat a =? 0)
            (RefIsap.Permutation_Permute_Nrounds L (state m) (ISAP_sH mc) ;; ret (N.of_nat rate))
            (ret (N.of_nat a))) (m ++ S_ s :: rest)
         (N.of_nat (if (a =? 0)%nat then rate else a))
         (m ++ S_ (if (a =? 0)%nat then pH s else s) :: rest).
  Proof.
    intros Hb Ws Ha. apply runs_if. destruct (Nat.eqb_spec a 0) as [->|Hz].
    - change (N.of_nat 0 =? 0) with true. cbv iota. eapply runs_bind.
      + apply (r_permute m s rest (i_sH I)); auto; [apply (mo_sH _ _ _ Hmc)|apply (mo_leH _ _ _ Hmc)].
      + apply runs_ret.
    - replace (N.of_nat a =? 0) with false by lia. apply runs_ret.
  Qed.

  Lemma r_ad_loop (m : mem) s (rest : mem) ad A : okb (length m) -> wf s -> has m ad A -> bytes A ->
    let sa := fold_left lz A (s, rate) in
    runs (RefIsap.mac_ad_loop L mc (state m) ad (N.of_nat (length A))) (m ++ S_ s :: rest)
         (N.of_nat (snd sa)) (m ++ S_ (fst sa) :: rest).
  Proof.
    intros Hb Ws HA BA. cbv zeta. unfold RefIsap.mac_ad_loop. rewrite rH_SZ.
    pose proof (mo_rate _ _ _ Hmc) as Hr. pose proof (mo_byte _ _ _ Hmc) as Hr2.
    apply (runs_for (fun k => N.of_nat (snd (fold_left lz (firstn k A) (s, rate))))
                    (fun k => m ++ S_ (fst (fold_left lz (firstn k A) (s, rate))) :: rest)); auto.
    - rewrite Nat2N.id. intros k Hk.
      pose proof (lazy_avail rate pH ltac:(lia) (firstn k A) s) as Hav.
      pose proof (lazy_ok rate pH wf wf_pH (fun s o b => wf_add1 s o b) (firstn k A) (s, rate)
                    (bytes_firstn _ _ BA) Ws) as Wk.
      rewrite (firstn_snoc A k 0), fold_left_app by auto. cbn [fold_left].
      destruct (fold_left lz (firstn k A) (s, rate)) as [sk a]. cbn [fst snd] in *.
      eapply runs_bind; [apply (r_lazy_perm m sk rest a); auto|].
      eapply runs_bind; [apply runs_load, rd1_app, HA; auto|].
      eapply runs_bind.
      + apply (r_add_local m _ rest _ (rate - (if (a =? 0)%nat then rate else a))).
        * rewrite sub64_small; destruct (Nat.eqb_spec a 0); lia.
        * destruct (Nat.eqb_spec a 0); [apply (wf_pH _ Wk)|apply Wk].
        * destruct (Nat.eqb_spec a 0); lia.
      + eapply runs_eq; [apply runs_ret| |].
        * unfold lazy_step. cbn [fst snd]. destruct (Nat.eqb_spec a 0); cbn [fst snd];
            rewrite sub64_small; lia.
        * unfold lazy_step. cbn [fst snd]. now destruct (Nat.eqb_spec a 0).
    - now rewrite Nat2N.id, firstn_all.
    - now rewrite Nat2N.id, firstn_all.
  Qed.

  Lemma r_ad_pad (m : mem) s a (rest : mem) : okb (length m) -> wf s -> (a <= rate)%nat ->
    runs (RefIsap.mac_ad_pad L mc (state m) (N.of_nat a)) (m ++ S_ s :: rest) tt
         (m ++ S_ (pH (fst (lz (s, a) 0x80))) :: rest).
  Proof.
    intros Hb Ws Ha. unfold RefIsap.mac_ad_pad.
    pose proof (mo_rate _ _ _ Hmc) as Hr. pose proof (mo_byte _ _ _ Hmc) as Hr2.
    rewrite rH_SZ.
    eapply runs_bind; [apply (r_lazy_perm m s rest a); auto|].
    set (s1 := if (a =? 0)%nat then pH s else s). set (a1 := if (a =? 0)%nat then rate else a).
    assert (Ws1 : wf s1) by (unfold s1; destruct (a =? 0)%nat; auto; now apply wf_pH).
    assert (Ha1 : (0 < a1 <= rate)%nat) by (unfold a1; destruct (Nat.eqb_spec a 0); lia).
    eapply runs_bind.
    - apply (r_add_local m s1 rest _ (rate - a1)); [rewrite sub64_small; lia|apply Ws1|lia].
    - replace (fst (lz (s, a) 0x80)) with (addat s1 (rate - a1) [0x80]).
      + apply r_permute; auto; [apply (mo_sH _ _ _ Hmc)|apply (mo_leH _ _ _ Hmc)|]. apply wf_add1; auto. lia.
      + unfold lazy_step, s1, a1. cbn [fst snd]. destruct (a =? 0)%nat; reflexivity.
  Qed.

  Lemma r_c_loop (m : mem) s (rest : mem) c C : okb (length m) -> wf s -> has m c C -> bytes C ->
    let sa := fold_left eg C (s, rate) in
    runs (RefIsap.mac_c_loop L mc (state m) c (N.of_nat (length C))) (m ++ S_ s :: rest)
         (N.of_nat (snd sa)) (m ++ S_ (fst sa) :: rest).
  Proof.
    intros Hb Ws HA BA. cbv zeta. unfold RefIsap.mac_c_loop. rewrite rH_SZ.
    pose proof (mo_rate _ _ _ Hmc) as Hr. pose proof (mo_byte _ _ _ Hmc) as Hr2.
    apply (runs_for (fun k => N.of_nat (snd (fold_left eg (firstn k C) (s, rate))))
                    (fun k => m ++ S_ (fst (fold_left eg (firstn k C) (s, rate))) :: rest)); auto.
    - rewrite Nat2N.id. intros k Hk.
      pose proof (eager_avail rate pH ltac:(lia) (firstn k C) s) as Hav.
      pose proof (eager_ok rate pH wf wf_pH (fun s o b => wf_add1 s o b) (firstn k C) (s, rate)
                    (bytes_firstn _ _ BA) Ws) as Wk.
      rewrite (firstn_snoc C k 0), fold_left_app by auto. cbn [fold_left].
      destruct (fold_left eg (firstn k C) (s, rate)) as [sk a]. cbn [fst snd] in *.
      eapply runs_bind; [apply runs_load, rd1_app, HA; auto|].
      eapply runs_bind.
      + apply (r_add_local m sk rest _ (rate - a)); [rewrite sub64_small; lia|apply Wk|lia].
      + cbv zeta. replace (sub64 (N.of_nat a) 1) with (N.of_nat (a - 1)) by (rewrite sub64_small; lia).
        assert (Wk1 : wf (addat sk (rate - a) [nth k C 0])) by (apply wf_add1; auto; now apply bytes_nth).
        eapply runs_eq; [apply (r_lazy_perm m _ rest (a - 1)); auto; lia| |];
          unfold eager_step; cbn [fst snd]; now destruct (a - 1 =? 0)%nat.
    - now rewrite Nat2N.id, firstn_all.
    - now rewrite Nat2N.id, firstn_all.
  Qed.

  (* The specification's MAC, cut at the point where the key enters. *)
  Definition mac_state (n a c : list N) : list N :=
    Spec.absorb I (Spec.dom_sep I (Spec.absorb I (pH (Spec.zpad I (n ++ Spec.iv_A I)))
      (chunks rate (Spec.pad rate a)))) (chunks rate (Spec.pad rate c)).

  Lemma dom_sep_addat s : length s = sz -> Spec.dom_sep I s = addat s (sz - 1) [1].
  Proof.
    intros Hs. pose proof (mo_szlo _ _ _ Hmc). unfold Spec.dom_sep.
    rewrite <- (addat_xorp s (repeat 0 (sz - 1)) 1). rewrite repeat_length. f_equal.
    rewrite <- (app_nil_l (repeat 0 (sz - 1))), xorp_zeros. apply xorp_nil.
  Qed.

  Lemma bytes_pad r x : bytes x -> bytes (Spec.pad r x).
  Proof.
    intros H. unfold Spec.pad. apply bytes_app. split; auto. constructor; [lia|]. apply bytes_repeat. lia.
  Qed.

  Lemma wf_absorb s x : bytes x -> wf s -> wf (Spec.absorb I s (chunks rate (Spec.pad rate x))).
  Proof.
    intros Bx Ws. apply (absorb_ok pH wf wf_pH); auto.
    - intros t b Hb Ht. now apply wf_xorp.
    - apply chunks_Forall. now apply bytes_pad.
  Qed.

  Lemma bytes_iv ty : ty < 256 -> bytes (Spec.iv I ty) .
  Proof.
    intros H. destruct Hmc. unfold Spec.iv. repeat constructor; lia.
  Qed.

  Lemma splice_app {A} (s x : list A) : splice s 0 x = x ++ skipn (length x) s.
  Proof. reflexivity. Qed.

  (* isap_mac writes the tag and nothing else. *)
  Lemma r_isap_mac (m : mem) k npub ad c tag kb nb A C : okbs m ->
    has m k kb -> has m npub nb -> has m ad A -> has m c C ->
    has m RefIsap.ISAP_IV_A (Spec.iv_A I) -> has m RefIsap.ISAP_IV_KA (Spec.iv_KA I) ->
    length kb = 16%nat -> length nb = 16%nat -> bytes kb -> bytes nb -> bytes A -> bytes C ->
    room m tag 16 ->
    runs (RefIsap.isap_mac L mc k npub ad (N.of_nat (length A)) c (N.of_nat (length C)) tag) m tt
         (putp m tag (Spec.isap_mac I kb nb A C)).
  Proof.
    intros Hokb Hk Hn HA HC HivA HivKA Lk Ln Bk Bn BA BC Htag.
    pose proof (mo_szlo _ _ _ Hmc) as Hz. pose proof (mo_rate _ _ _ Hmc) as Hr.
    pose proof (mo_byte _ _ _ Hmc) as Hr2.
    assert (Hb0 : okb (length m)) by (apply Hokb; lia).
    assert (BivA : bytes (Spec.iv_A I)) by (apply bytes_iv; lia).
    assert (BivKA : bytes (Spec.iv_KA I)) by (apply bytes_iv; lia).
    unfold RefIsap.isap_mac. rewrite (mo_sz _ _ _ Hmc), Nat2N.id.
    set (s0 := pH (Spec.zpad I (nb ++ Spec.iv_A I))).
    assert (Wz : wf (Spec.zpad I (nb ++ Spec.iv_A I))).
    { apply wf_zpad; [now apply bytes_app|]. rewrite app_length. cbn [length Spec.iv_A Spec.iv]. lia. }
    assert (Ws0 : wf s0) by now apply wf_pH.
    set (s1 := Spec.absorb I s0 (chunks rate (Spec.pad rate A))).
    assert (Ws1 : wf s1) by now apply wf_absorb.
    set (s2 := Spec.dom_sep I s1).
    assert (Ws2 : wf s2).
    { unfold s2. rewrite dom_sep_addat by apply Ws1. apply wf_add1; auto. lia. }
    set (s3 := Spec.absorb I s2 (chunks rate (Spec.pad rate C))).
    assert (Ws3 : wf s3) by now apply wf_absorb.
    set (y := firstn 16 s3).
    assert (Ly : length y = 16%nat) by (unfold y; rewrite firstn_length, (proj1 Ws3); lia).
    assert (By : bytes y) by (apply bytes_firstn, Ws3).
    set (ka := Spec.isap_rk I kb (Spec.iv_KA I) y 16).
    assert (Wka : bytes ka /\ length ka = 16%nat) by (apply wf_rk; auto; lia).
    destruct Wka as [Bka Lka].
    set (s4 := pH (ka ++ skipn 16 s3)).
    assert (Ws4 : wf s4).
    { apply wf_pH. split.
      - rewrite app_length, skipn_length, (proj1 Ws3). lia.
      - apply bytes_app. split; auto. apply bytes_skipn, Ws3. }
    assert (Etag : Spec.isap_mac I kb nb A C = firstn 16 s4) by reflexivity.
    rewrite Etag.
    assert (Hpb : forall p bs x, has m p bs -> length bs = S x -> pb p <> length m).
    { intros p bs x H1 H2. pose proof (has_pb _ _ _ H1 (nonnil _ _ H2)). lia. }
    apply (runs_with_block _ _ _ _ _ (S_ s4)).
    eapply runs_bind; [apply r_init; [apply uninit_length|reflexivity]|].
    eapply runs_bind.
    { apply (r_add m (repeat 0 sz) [] npub nb 0); auto; try lia.
      - now rewrite Ln.
      - apply repeat_length.
      - now apply has_app.
      - now apply (Hpb _ _ 15%nat Hn). }
    eapply runs_bind.
    { apply (r_add m _ [] RefIsap.ISAP_IV_A (Spec.iv_A I) 16); auto; try (cbn [length Spec.iv_A Spec.iv]; lia).
      - now rewrite addat_length, repeat_length.
      - now apply has_app.
      - now apply (Hpb _ _ 7%nat HivA). }
    rewrite zpad_add by auto.
    eapply runs_bind.
    { apply (r_permute m _ [] (i_sH I)); auto; [apply (mo_sH _ _ _ Hmc)|apply (mo_leH _ _ _ Hmc)]. }
    fold s0.
    eapply runs_bind; [apply (r_ad_loop m s0 [] ad A); auto|].
    pose proof (lazy_spec rate pH ltac:(lia) A s0) as Elz.
    pose proof (lazy_avail rate pH ltac:(lia) A s0) as Hav.
    pose proof (lazy_ok rate pH wf wf_pH (fun s o b => wf_add1 s o b) A (s0, rate) BA Ws0) as Wk.
    destruct (fold_left lz A (s0, rate)) as [sk a]. cbn [fst snd] in Hav, Wk. cbn [fst snd].
    eapply runs_bind; [apply (r_ad_pad m sk a []); auto|].
    rewrite Elz. change (fold_left _ (chunks rate (Spec.pad rate A)) s0) with s1. clear sk a Elz Hav Wk.
    eapply runs_bind.
    { apply (r_add_local m s1 [] 1 (sz - 1)); [unfold RefIsap.CRYPTO_NPUBBYTES; lia|apply Ws1|lia]. }
    rewrite <- dom_sep_addat by apply Ws1. fold s2.
    eapply runs_bind; [apply (r_c_loop m s2 [] c C); auto|].
    pose proof (eager_spec rate pH ltac:(lia) C s2) as Eeg. cbv zeta in Eeg.
    pose proof (eager_avail rate pH ltac:(lia) C s2) as Hav.
    pose proof (eager_ok rate pH wf wf_pH (fun s o b => wf_add1 s o b) C (s2, rate) BC Ws2) as Wk.
    destruct (fold_left eg C (s2, rate)) as [sk a]. cbn [fst snd] in Hav, Wk, Eeg. cbn [fst snd].
    rewrite rH_SZ.
    eapply runs_bind.
    { apply (r_add_local m sk [] 0x80 (rate - a)); [rewrite sub64_small; lia|apply Wk|lia]. }
    eapply runs_bind.
    { apply (r_permute m _ [] (i_sH I)); auto; [apply (mo_sH _ _ _ Hmc)|apply (mo_leH _ _ _ Hmc)|].
      apply wf_add1; auto. lia. }
    rewrite Eeg. change (fold_left _ (chunks rate (Spec.pad rate C)) s2) with s3. clear sk a Eeg Hav Wk.
    (* locals y and ka_star *)
    apply (runs_with_block _ _ _ _ _ (S_ y)). rewrite <- app_assoc. cbn [app].
    apply (runs_with_block _ _ _ _ _ (S_ ka)). rewrite <- app_assoc. cbn [app].
    rewrite !app_length. cbn [length].
    assert (Hput : forall (x1 x2 : block) i v, length x2 = length v ->
      putp (m ++ [x1; x2] ++ i) (P (length m + 1) 0) v = m ++ [x1; S_ v] ++ i).
    { intros x1 x2 i v Hl. unfold putp, put. cbn [pb po]. rewrite blk_app2. cbn [app blk nth].
      rewrite upd_app2. cbn [upd_nth]. rewrite splice_all by now rewrite map_length. reflexivity. }
    eapply runs_bind.
    { eapply runs_eq; [apply (r_extract m s3 [uninit 16; uninit 16] (P (length m + 1) 0) 0 16); auto; try lia| |].
      - apply Ws3.
      - apply room_of_le. cbn [pb po]. rewrite blk_app2. cbn [blk nth]. rewrite uninit_length. lia.
      - cbn [pb]. lia.
      - reflexivity.
      - cbn [skipn]. fold y. apply (Hput (S_ s3) (uninit 16) [uninit 16] y). now rewrite uninit_length, Ly. }
    cbn [app].
    eapply runs_bind.
    { apply (r_isap_rk (m ++ [S_ s3; S_ y; uninit 16]) k RefIsap.ISAP_IV_KA (P (length m + 1) 0)
               (P (length m + 2) 0) kb (Spec.iv_KA I) y 16); auto.
      - apply Hokb. rewrite app_length. lia.
      - now apply has_app.
      - now apply has_app.
      - apply has_blk0. rewrite blk_app2. reflexivity.
      - apply room_of_le. cbn [pb po]. rewrite blk_app2. cbn [blk nth]. rewrite uninit_length. lia.
      - lia. }
    fold ka.
    replace (putp (m ++ [S_ s3; S_ y; uninit 16]) (P (length m + 2) 0) ka) with (m ++ S_ s3 :: [S_ y; S_ ka]).
    2:{ unfold putp, put. cbn [pb po]. rewrite blk_app2. cbn [blk nth]. rewrite upd_app2. cbn [upd_nth].
        rewrite splice_all by now rewrite map_length, uninit_length, Lka. reflexivity. }
    eapply runs_bind.
    { apply (r_over m (S_ s3) [S_ y; S_ ka] (P (length m + 2) 0) ka 0 _ _ (ka ++ skipn 16 s3)); auto; try lia.
      - now rewrite Lka.
      - rewrite map_length. apply Ws3.
      - apply has_blk0. rewrite blk_app2. reflexivity.
      - cbn [pb]. lia.
      - now rewrite splice_map, splice_app, Lka. }
    eapply runs_bind.
    { apply (r_permute m _ [S_ y; S_ ka] (i_sH I)); auto; [apply (mo_sH _ _ _ Hmc)|apply (mo_leH _ _ _ Hmc)|].
      split.
      - rewrite app_length, skipn_length, (proj1 Ws3). lia.
      - apply bytes_app. split; auto. apply bytes_skipn, Ws3. }
    fold s4.
    eapply runs_eq.
    - apply (r_extract m s4 [S_ y; S_ ka] tag 0 16); auto; try lia.
      + apply Ws4.
      + now apply room_app.
      + apply Nat.lt_neq, (room_pb m tag 16%nat Htag). lia.
    - reflexivity.
    - cbn [skipn]. rewrite putp_app by (rewrite firstn_length, (proj1 Ws4); now replace (Nat.min 16 sz) with 16%nat by lia).
      rewrite <- !app_assoc. reflexivity.
  Qed.

  Lemma mac_length kb nb A C : length kb = 16%nat -> length nb = 16%nat -> bytes kb -> bytes nb -> bytes A -> bytes C ->
    bytes (Spec.isap_mac I kb nb A C) /\ length (Spec.isap_mac I kb nb A C) = 16%nat.
  Proof.
    intros Lk Ln Bk Bn BA BC. pose proof (mo_szlo _ _ _ Hmc) as Hz. unfold Spec.isap_mac. cbv zeta.
    assert (BivA : bytes (Spec.iv_A I)) by (apply bytes_iv; lia).
    assert (BivKA : bytes (Spec.iv_KA I)) by (apply bytes_iv; lia).
    set (s3 := Spec.absorb I _ (chunks rate (Spec.pad rate C))).
    assert (Ws3 : wf s3).
    { apply wf_absorb; auto. rewrite dom_sep_addat.
      - apply wf_add1; [lia|]. apply wf_absorb; auto. apply wf_pH, wf_zpad; [now apply bytes_app|].
        rewrite app_length. cbn [length Spec.iv_A Spec.iv]. lia.
      - apply wf_absorb; auto. apply wf_pH, wf_zpad; [now apply bytes_app|].
        rewrite app_length. cbn [length Spec.iv_A Spec.iv]. lia. }
    assert (Ly : length (firstn 16 s3) = 16%nat) by (rewrite firstn_length, (proj1 Ws3); lia).
    destruct (wf_rk kb (Spec.iv_KA I) (firstn 16 s3) 16) as [B1 L1]; auto; try lia.
    set (ka := Spec.isap_rk I kb _ _ 16) in *.
    assert (W : wf (pH (ka ++ skipn 16 s3))).
    { apply wf_pH. split.
      - rewrite app_length, skipn_length, (proj1 Ws3). lia.
      - apply bytes_app. split; auto. apply bytes_skipn, Ws3. }
    split; [apply bytes_firstn, W|]. rewrite firstn_length, (proj1 W). lia.
  Qed.

  (* ---------- isap_enc ---------- *)

  Notation pE := (i_perm I (i_sE I)).
  Lemma wf_pE s : wf s -> wf (pE s).
  Proof. apply wf_perm, (mo_leE _ _ _ Hmc). Qed.

  Definition enc_state (kb nb : list N) : list N := Spec.isap_rk I kb (Spec.iv_KE I) nb (sz - 16) ++ nb.

  Lemma wf_enc_state kb nb : length kb = 16%nat -> length nb = 16%nat -> bytes kb -> bytes nb -> wf (enc_state kb nb).
  Proof.
    intros Lk Ln Bk Bn. pose proof (mo_szlo _ _ _ Hmc) as Hz.
    destruct (wf_rk kb (Spec.iv_KE I) nb (sz - 16)) as [H1 H2]; auto; try lia; [apply bytes_iv; lia|].
    unfold enc_state. split; [rewrite app_length; lia|now apply bytes_app].
  Qed.

  Lemma isap_enc_spec kb nb M : length kb = 16%nat -> length nb = 16%nat -> bytes kb -> bytes nb ->
    Spec.isap_enc I kb nb M =
    map (fun i => N.lxor (nth i M 0) (ks_byte rate pE (enc_state kb nb) i)) (seq 0 (length M)).
  Proof.
    intros Lk Ln Bk Bn. pose proof (mo_rate _ _ _ Hmc) as Hr.
    rewrite <- (encb_spec rate pE ltac:(lia) wf wf_pE).
    - reflexivity.
    - intros s [Hs _]. lia.
    - now apply wf_enc_state.
  Qed.

  Lemma enc_length kb nb M : length kb = 16%nat -> length nb = 16%nat -> bytes kb -> bytes nb ->
    length (Spec.isap_enc I kb nb M) = length M.
  Proof. intros. rewrite isap_enc_spec by auto. now rewrite map_length, seq_length. Qed.

  Lemma iter_wf n s : wf s -> wf (iter pE n s).
  Proof. intros H. apply iter_ok; auto. apply wf_pE. Qed.

  Lemma enc_bytes kb nb M : length kb = 16%nat -> length nb = 16%nat -> bytes kb -> bytes nb -> bytes M ->
    bytes (Spec.isap_enc I kb nb M).
  Proof.
    intros. rewrite isap_enc_spec by auto. apply Forall_map, Forall_forall. intros i _.
    apply lxor_byte; [now apply bytes_nth|]. apply bytes_nth. apply iter_wf. now apply wf_enc_state.
  Qed.

  (* Number of permutation calls made before byte i is produced. *)
  Definition cnt (i : nat) : nat := ((i + rate - 1) / rate)%nat.

  Lemma cnt_spec i : cnt i = if (i mod rate =? 0)%nat then (i / rate)%nat else S (i / rate).
  Proof.
    pose proof (mo_rate _ _ _ Hmc) as Hr. unfold cnt.
    pose proof (Nat.div_mod i rate ltac:(lia)) as E. pose proof (Nat.mod_upper_bound i rate ltac:(lia)) as Hm.
    destruct (Nat.eqb_spec (i mod rate) 0) as [H0|H0].
    - symmetry. apply (Nat.div_unique _ _ _ (rate - 1)); lia.
    - symmetry. apply (Nat.div_unique _ _ _ (i mod rate - 1)); lia.
  Qed.

  Lemma cnt_S i : cnt (S i) = S (i / rate).
  Proof.
    pose proof (mo_rate _ _ _ Hmc) as Hr. unfold cnt. replace (S i + rate - 1)%nat with (i + 1 * rate)%nat by lia.
    rewrite Nat.div_add by lia. lia.
  Qed.

  Definition avail (i : nat) : nat := if (i mod rate =? 0)%nat then 0%nat else (rate - i mod rate)%nat.

  Lemma avail_S i : avail (S i) = ((if (avail i =? 0)%nat then rate else avail i) - 1)%nat.
  Proof.
    pose proof (mo_rate _ _ _ Hmc) as Hr. unfold avail.
    pose proof (Nat.mod_upper_bound i rate ltac:(lia)) as Hm.
    assert (E : (S i mod rate = if (i mod rate =? rate - 1)%nat then 0 else S (i mod rate))%nat).
    { pose proof (Nat.div_mod i rate ltac:(lia)) as E.
      destruct (Nat.eqb_spec (i mod rate) (rate - 1)) as [H1|H1]; symmetry.
      - apply (Nat.mod_unique _ _ (S (i / rate))); lia.
      - apply (Nat.mod_unique _ _ (i / rate)); lia. }
    rewrite E. clear E. destruct (Nat.eqb_spec (i mod rate) (rate - 1)), (Nat.eqb_spec (i mod rate) 0); cbn [Nat.eqb]; try lia.
    - replace (rate - i mod rate =? 0)%nat with false by lia. lia.
    - replace (rate - i mod rate =? 0)%nat with false by lia. lia.
  Qed.

  Lemma r_isap_enc (m : mem) k npub mp c kb nb M : okbs m ->
    has m k kb -> has m npub nb -> has m mp M -> has m RefIsap.ISAP_IV_KE (Spec.iv_KE I) ->
    length kb = 16%nat -> length nb = 16%nat -> bytes kb -> bytes nb -> bytes M ->
    room m c (length M) -> fwd_ok c mp (length M) ->
    runs (RefIsap.isap_enc L mc k npub mp (N.of_nat (length M)) c) m tt (putp m c (Spec.isap_enc I kb nb M)).
  Proof.
    intros Hokb Hk Hn HM HivKE Lk Ln Bk Bn BM Hc Hfwd.
    pose proof (mo_szlo _ _ _ Hmc) as Hz. pose proof (mo_rate _ _ _ Hmc) as Hr.
    pose proof (mo_byte _ _ _ Hmc) as Hr2.
    assert (Hb0 : okb (length m)) by (apply Hokb; lia).
    assert (BivKE : bytes (Spec.iv_KE I)) by (apply bytes_iv; lia).
    destruct (wf_rk kb (Spec.iv_KE I) nb (sz - 16)) as [B1 L1]; auto; try lia.
    pose proof (wf_enc_state kb nb Lk Ln Bk Bn) as Ws.
    pose proof (enc_length kb nb M Lk Ln Bk Bn) as Lct.
    unfold RefIsap.isap_enc. rewrite (mo_sz _ _ _ Hmc), Nat2N.id. unfold RefIsap.CRYPTO_NPUBBYTES.
    set (s0 := enc_state kb nb) in *. set (ct := Spec.isap_enc I kb nb M) in *.
    apply (runs_with_block _ _ _ _ _ (S_ (iter pE (cnt (length M)) s0))).
    set (K := Spec.isap_rk I kb (Spec.iv_KE I) nb (sz - 16)) in *.
    eapply runs_bind.
    { apply (r_isap_rk (m ++ [uninit sz]) k RefIsap.ISAP_IV_KE npub (P (length m) 0) kb (Spec.iv_KE I) nb (sz - 16));
        auto; try lia; try now apply has_app.
      - apply Hokb. rewrite app_length. lia.
      - apply room_of_le. cbn [pb po]. rewrite blk_mid, uninit_length. lia. }
    fold K.
    replace (putp (m ++ [uninit sz]) (P (length m) 0) K) with (m ++ [S_ K ++ uninit 16]).
    2:{ unfold putp, put. cbn [pb po]. rewrite blk_mid, upd_mid. change (N.to_nat 0) with 0%nat.
        rewrite splice_app, map_length, L1. unfold uninit.
        replace sz with (sz - 16 + 16)%nat at 2 by lia. rewrite repeat_app, skipn_app, repeat_length, Nat.sub_diag.
        rewrite skipn_all2 by (rewrite repeat_length; lia). reflexivity. }
    apply (runs_bind _ _ _ tt (m ++ [S_ s0])).
    { eapply runs_eq; [apply (r_over m (S_ K ++ uninit 16) [] npub nb (sz - 16) _ _ s0); auto; try lia| |]; auto.
      - rewrite app_length, map_length, uninit_length. lia.
      - now apply has_app.
      - pose proof (has_pb _ _ _ Hn (nonnil _ _ Ln)). lia.
      - unfold splice. rewrite firstn_app, map_length, L1, Nat.sub_diag. cbn [firstn].
        rewrite firstn_all2 by (rewrite map_length; lia).
        rewrite skipn_all2 by (rewrite app_length, !map_length, uninit_length; lia).
        rewrite !app_nil_r. unfold s0, enc_state. fold K. now rewrite map_app. }
    eapply runs_bind; [|apply runs_ret].
    apply (runs_for (fun i => N.of_nat (avail i))
                    (fun i => putp m c (firstn i ct) ++ [S_ (iter pE (cnt i) s0)]))
      with (a1 := N.of_nat (avail (length M))).
    - rewrite Nat2N.id. intros i Hi.
      set (mi := putp m c (firstn i ct)).
      assert (Lmi : length mi = length m) by apply putp_length.
      assert (Hri : room m c (length (firstn i ct))).
      { intros j Hj. apply Hc. rewrite firstn_length in Hj. lia. }
      assert (Lfi : length (firstn i ct) = i) by (rewrite firstn_length; lia).
      assert (Wi : wf (iter pE (cnt i) s0)) by now apply iter_wf.
      assert (Ha : (avail i <= rate)%nat) by (unfold avail; destruct (i mod rate =? 0)%nat; lia).
      rewrite <- Lmi.
      apply (runs_bind _ _ _ (N.of_nat (if (avail i =? 0)%nat then rate else avail i))
               (mi ++ [S_ (iter pE (cnt (S i)) s0)])).
      { apply runs_if. destruct (Nat.eqb_spec (avail i) 0) as [E0|E0].
        - rewrite E0. change (N.of_nat 0 =? 0) with true. cbv iota.
          eapply runs_bind.
          + apply (r_permute mi _ [] (i_sE I)); auto; [apply (mo_sE _ _ _ Hmc)|apply (mo_leE _ _ _ Hmc)|].
            now rewrite Lmi.
          + rewrite rH_SZ. eapply runs_eq; [apply runs_ret|auto|].
            do 3 f_equal. change (pE (iter pE (cnt i) s0)) with (iter pE (S (cnt i)) s0). f_equal.
            rewrite cnt_S, cnt_spec. unfold avail in E0. destruct (Nat.eqb_spec (i mod rate) 0); auto.
            pose proof (Nat.mod_upper_bound i rate ltac:(lia)). lia.
        - replace (N.of_nat (avail i) =? 0) with false by lia. eapply runs_eq; [apply runs_ret|auto|].
          do 4 f_equal. rewrite cnt_S, cnt_spec. unfold avail in E0. destruct (i mod rate =? 0)%nat; auto. lia. }
      assert (Wi1 : wf (iter pE (cnt (S i)) s0)) by now apply iter_wf.
      set (si := iter pE (cnt (S i)) s0) in *.
      set (kb_i := nth (i mod rate) si 0).
      pose proof (Nat.mod_upper_bound i rate ltac:(lia)) as Hmod.
      apply (runs_bind _ _ _ tt (putp m c (firstn (S i) ct) ++ [S_ si])).
      { apply (runs_with_block _ _ _ _ _ (S_ [kb_i])).
        set (MM := mi ++ [S_ si]).
        assert (LMM : length MM = S (length mi)) by (unfold MM; rewrite app_length; cbn [length]; lia).
        apply (runs_bind _ _ _ tt (MM ++ [S_ [kb_i]])).
        { unfold MM at 2. rewrite <- app_assoc. cbn [app].
          eapply runs_eq; [apply (r_extract mi si [uninit 1] (P (length MM) 0) (i mod rate) 1)| |]; auto.
          - rewrite rH_SZ. now rewrite Nat2N.inj_mod.
          - apply Wi1.
          - apply room_of_le. cbn [pb po]. change (mi ++ S_ si :: [uninit 1]) with (mi ++ [S_ si] ++ [uninit 1]).
            rewrite app_assoc. fold MM. rewrite blk_mid. cbn. lia.
          - cbn [pb]. lia.
          - lia.
          - destruct Wi1. lia.
          - change (mi ++ S_ si :: [uninit 1]) with (mi ++ [S_ si] ++ [uninit 1]). rewrite app_assoc. fold MM.
            unfold putp, put. cbn [pb po]. rewrite blk_mid, upd_mid. do 2 f_equal.
            rewrite splice_all.
            + rewrite (skipn_cons_nth si (i mod rate) 0) by (destruct Wi1; lia). reflexivity.
            + rewrite map_length, firstn_length, skipn_length, uninit_length. destruct Wi1. lia. }
        eapply runs_bind.
        { apply runs_load, rd1_app, rd1_app. unfold mi. rewrite rd1_putp by auto. rewrite Lfi.
          destruct (within c i (padd mp (N.of_nat i))) eqn:Ew; [|now apply HM].
          apply within_inv in Ew. destruct Ew as (j & Hj & Ew). now destruct (Hfwd j i (conj Hj Hi)). }
        eapply runs_bind.
        { apply runs_load. apply (rd1_blk _ _ [kb_i] 0); [apply blk_mid|]. cbn. lia. }
        eapply runs_eq.
        - apply runs_store1. apply inside_app, inside_app. unfold mi. rewrite inside_putp by auto. now apply Hc.
        - reflexivity.
        - assert (Hin : room mi (padd c (N.of_nat i)) 1).
          { intros j Hj. replace j with 0%nat by lia. change (N.of_nat 0) with 0. rewrite padd_0.
            unfold mi. rewrite inside_putp by auto. now apply Hc. }
          rewrite putp_app by (cbn [length]; unfold MM; now apply room_app).
          unfold MM. rewrite putp_app by auto. f_equal. f_equal. unfold mi.
          rewrite (firstn_snoc ct i 0) by lia.
          rewrite <- putp_app_bytes by (rewrite app_length, Lfi; intros j Hj; apply Hc; cbn [length] in Hj; lia).
          rewrite Lfi. f_equal. f_equal. unfold ct. rewrite isap_enc_spec by auto.
          rewrite (nth_map_lt _ _ _ 0%nat 0) by now rewrite seq_length. rewrite seq_nth by auto. cbn [Nat.add].
          f_equal. unfold kb_i, si, ks_byte. now rewrite cnt_S. }
      eapply runs_eq; [apply runs_ret| |].
      + rewrite avail_S. rewrite sub64_small; destruct (Nat.eqb_spec (avail i) 0); lia.
      + reflexivity.
    - unfold avail. rewrite Nat.mod_0_l by lia. reflexivity.
    - cbn [firstn]. rewrite putp_nil. unfold cnt. rewrite Nat.div_small by lia. reflexivity.
    - now rewrite Nat2N.id.
    - rewrite Nat2N.id, firstn_all2 by lia. reflexivity.
  Qed.
End Ref.
