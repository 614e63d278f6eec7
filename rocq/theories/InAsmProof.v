(* Inline assembly: a template run with operands in registers of the compiler's choice does what the model with one variable per operand does.
   Proofs only. *)
From Verif Require Import Base Prog SpecPerm Words AsconProof OptPerm A128Perm OptRep OptPermProof A128PermProof VocabV7m V7mPerm InAsm VocabInAsm.
Open Scope N_scope.

Definition dst (i : arm) : nat :=
  match i with EOR d _ _ | EORr d _ _ _ | AND d _ _ | ORR d _ _ | ORN d _ _ | BIC d _ _ | MVN d _ | MOV d _ | MOVi d _ | ROR d _ _ => d end.
Definition srcs (i : arm) : list nat :=
  match i with EOR _ a c | EORr _ a c _ | AND _ a c | ORR _ a c | ORN _ a c | BIC _ a c | ROR _ a c => [a; c] | MVN _ a | MOV _ a => [a] | MOVi _ _ => [] end.
Definition mem (a : nat) (l : list nat) : bool := existsb (Nat.eqb a) l.
Lemma mem_in a l : mem a l = true <-> In a l.
Proof. unfold mem. rewrite existsb_exists. split; [intros (x & H & E); apply Nat.eqb_eq in E; now subst|intros H; exists a; split; [assumption|apply Nat.eqb_refl]]. Qed.

(* Operands in K have their value; sh: which input may be overwritten by which output. *)
Definition kn' (i : arm) (kn : list (nat * N)) : list (nat * N) := match i with MOVi d k => (d, k) :: forget d kn | _ => forget (dst i) kn end.
Definition ror_ok (i : arm) (kn : list (nat * N)) : bool :=
  match i with ROR _ _ c => if find (fun e => (fst e =? c)%nat) kn then true else false | EORr _ _ _ k => k <? 32 | MOVi _ k => k <? 32 | _ => true end.
Definition lose (sh : list (nat * nat)) (d : nat) (K : list nat) : list nat :=
  filter (fun a => negb (existsb (fun p => (fst p =? a)%nat && (snd p =? d)%nat) sh)) K.
Fixpoint chk (n : nat) (outs : list nat) (sh : list (nat * nat)) (K : list nat) (kn : list (nat * N)) (l : list arm) : bool :=
  match l with
  | [] => forallb (fun o => mem o K) [x0_e; x0_o; x1_e; x1_o; x2_e; x2_o; x3_e; x3_o; x4_e; x4_o]
  | i :: l' => forallb (fun a => mem a K) (srcs i) && mem (dst i) outs && (dst i <? n)%nat && ror_ok i kn &&
               chk n outs sh (dst i :: lose sh (dst i) K) (kn' i kn) l'
  end.

Section Sim.
  Variables (n : nat) (outs ins : list nat) (sh : list (nat * nat)) (b : nat -> place).
  Hypothesis B1 : forall o, In o outs -> exists r, b o = Reg r.
  Hypothesis B2 : forall o o', In o outs -> In o' outs -> b o = b o' -> o = o'.
  Hypothesis B3 : forall i o, In i ins -> ~ In i outs -> In o outs -> b i = b o -> In (i, o) sh.

  Definition rel (K : list nat) (kn : list (nat * N)) (m : cpu) (e : env) : Prop :=
    length e = n /\ (forall a, In a K -> rd b m a = nth a e 0 /\ nth a e 0 < 2 ^ 32) /\ (forall a k, In (a, k) kn -> nth a e 0 = k) /\ incl K (outs ++ ins).

  Lemma forget_in d kn a k : In (a, k) (forget d kn) -> In (a, k) kn /\ a <> d.
  Proof. unfold forget. rewrite filter_In. cbn [fst]. intros [H E]. split; [assumption|]. intros ->. now rewrite Nat.eqb_refl in E. Qed.

  Lemma rel_write K kn m e d v s : rel K kn m e -> In d outs -> (d < n)%nat -> v < 2 ^ 32 ->
    rel (d :: lose sh d K) (forget d kn) (wr b s m d v) (upd_nth e d v).
  Proof.
    intros (L & H & Hk & Hu) Hd Hn Hv. destruct (B1 d Hd) as (r & Er). split; [now rewrite upd_nth_length|]. split; [|split].
    - intros a Ha. rewrite nth_upd_nth, L. replace (d <? n)%nat with true by lia.
      destruct (Nat.eqb_spec a d) as [->|Ne].
      + split; [|assumption]. unfold rd, wr. rewrite Er. cbn [rg]. now rewrite Nat.eqb_refl.
      + destruct Ha as [E|Ha]; [congruence|]. unfold lose in Ha. rewrite filter_In in Ha. destruct Ha as [Ha Hs].
        destruct (H a Ha) as [E Hb]. split; [|assumption]. rewrite <- E. unfold rd, wr. rewrite Er. destruct (b a) as [r'|v'] eqn:Ea; [|reflexivity].
        cbn [rg]. destruct (Nat.eqb_spec r' r) as [->|]; [|reflexivity]. exfalso.
        destruct (in_dec Nat.eq_dec a outs) as [Ho|Ho]; [apply Ne; apply B2; [assumption..|congruence]|].
        assert (X : In (a, d) sh) by (apply B3; [|assumption|assumption|congruence]; apply Hu, in_app_or in Ha; destruct Ha; [contradiction|assumption]).
        apply negb_true_iff in Hs. rewrite <- not_true_iff_false in Hs. apply Hs. apply existsb_exists. exists (a, d). split; [assumption|].
        cbn [fst snd]. now rewrite !Nat.eqb_refl.
    - intros a k Ha. apply forget_in in Ha. destruct Ha as [Ha Ne]. rewrite nth_upd_nth. destruct (Nat.eqb_spec a d) as [|_]; [contradiction|]. now apply Hk.
    - intros a [<-|Ha]; [apply in_or_app; now left|]. apply Hu. unfold lose in Ha. now apply filter_In in Ha.
  Qed.

  Lemma land_lt a c : a < 2 ^ 32 -> N.land a c < 2 ^ 32.
  Proof. intros H. apply lt_pow2_tb. intros i Hi. rewrite N.land_spec, (tb_high a 32 i H Hi). reflexivity. Qed.
  Lemma lor_lt' a c : a < 2 ^ 32 -> c < 2 ^ 32 -> N.lor a c < 2 ^ 32.
  Proof. intros H H'. apply lt_pow2_tb. intros i Hi. rewrite N.lor_spec, (tb_high a 32 i H Hi), (tb_high c 32 i H' Hi). reflexivity. Qed.
  Lemma wnot_lt a : wnot 32 a < 2 ^ 32.
  Proof. apply lt_pow2_tb. intros i Hi. rewrite tb_wnot. replace (i <? 32) with false by lia. reflexivity. Qed.
  Lemma wror_lt a k : k < 32 -> wror 32 a k < 2 ^ 32.
  Proof. intros Hk. apply lt_pow2_tb. intros i Hi. rewrite tb_wror by assumption. replace (i <? 32) with false by lia. reflexivity. Qed.

  Lemma sim l : forall K kn m e, chk n outs sh K kn l = true -> rel K kn m e ->
    exists K' kn', rel K' kn' (arms b l m) (run (arm_prog kn l) e) /\ forall o, In o [x0_e; x0_o; x1_e; x1_o; x2_e; x2_o; x3_e; x3_o; x4_e; x4_o] -> In o K'.
  Proof.
    induction l as [|i l IH]; intros K kn m e C R.
    - exists K, kn. split; [exact R|]. cbn [chk] in C. rewrite forallb_forall in C. intros o Ho. apply mem_in. now apply C.
    - cbn [chk] in C. rewrite !andb_true_iff in C. destruct C as [[[[C1 C2] C3] C4] C5]. apply mem_in in C2. apply Nat.ltb_lt in C3.
      rewrite forallb_forall in C1. change (arms b (i :: l) m) with (arms b l (arm1 b m i)). pose proof R as (L & HK & Hn & _).
      assert (S1 : forall a, In a (srcs i) -> rd b m a = nth a e 0 /\ nth a e 0 < 2 ^ 32) by (intros a Ha; apply HK, mem_in, C1, Ha).
      assert (G : forall v s ex, v < 2 ^ 32 -> arm1 b m i = wr b s m (dst i) v -> eval e ex = v ->
                  (forall a k, In (a, k) (kn' i kn) -> nth a (upd_nth e (dst i) v) 0 = k) -> arm_prog kn (i :: l) = Asg (dst i) ex :: arm_prog (kn' i kn) l ->
                  exists K' kn'', rel K' kn'' (arms b l (arm1 b m i)) (run (arm_prog kn (i :: l)) e) /\
                    forall o, In o [x0_e; x0_o; x1_e; x1_o; x2_e; x2_o; x3_e; x3_o; x4_e; x4_o] -> In o K').
      { intros v s ex Hv E1 E2 E4 E3. rewrite E1, E3. change (run (Asg (dst i) ex :: arm_prog (kn' i kn) l) e) with (run (arm_prog (kn' i kn) l) (upd_nth e (dst i) (eval e ex))).
        rewrite E2. apply (IH _ _ _ _ C5). destruct (rel_write K kn m e (dst i) v s R C2 C3 Hv) as (A1 & A2 & A3 & A4). split; [assumption|]. split; [assumption|]. split; assumption. }
      assert (F : forall v a k, In (a, k) (forget (dst i) kn) -> nth a (upd_nth e (dst i) v) 0 = k).
      { intros v a k Ha. apply forget_in in Ha. destruct Ha as [Ha Ne]. rewrite nth_upd_nth. destruct (Nat.eqb_spec a (dst i)); [contradiction|]. now apply Hn. }
      destruct i as [d a c|d a c k|d a c|d a c|d a c|d a c|d a|d a|d k|d a c]; cbn [dst srcs kn' ror_ok arm1] in *;
        try (destruct (S1 a ltac:(now left)) as [Ea Ba]); try (destruct (S1 c ltac:(now (right; left))) as [Ec Bc]).
      + eapply G; [|reflexivity| |apply F|reflexivity]; [|cbn [eval]; now rewrite Ea, Ec]. rewrite Ea, Ec. now apply lxor_lt.
      + apply N.ltb_lt in C4. eapply G; [|reflexivity| |apply F|reflexivity]; [|cbn [eval]; now rewrite Ea, Ec].
        apply lxor_lt; [now rewrite Ea|now apply wror_lt].
      + eapply G; [|reflexivity| |apply F|reflexivity]; [|cbn [eval]; now rewrite Ea, Ec]. apply land_lt. now rewrite Ea.
      + eapply G; [|reflexivity| |apply F|reflexivity]; [|cbn [eval]; now rewrite Ea, Ec]. rewrite Ea, Ec. now apply lor_lt'.
      + eapply G; [|reflexivity| |apply F|reflexivity]; [|cbn [eval]; now rewrite Ea, Ec]. apply lor_lt'; [now rewrite Ea|apply wnot_lt].
      + eapply G; [|reflexivity| |apply F|reflexivity]; [|cbn [eval]; now rewrite Ea, Ec]. apply land_lt. now rewrite Ea.
      + eapply G; [|reflexivity| |apply F|reflexivity]; [|cbn [eval]; now rewrite Ea]. apply wnot_lt.
      + eapply G; [|reflexivity| |apply F|reflexivity]; [|cbn [eval]; now rewrite Ea]. now rewrite Ea.
      + apply N.ltb_lt in C4. eapply G; [|reflexivity| | |reflexivity].
        * now apply N.lt_trans with 32.
        * reflexivity.
        * intros a' k' [E|Ha]; [injection E as <- <-|now apply F]. rewrite nth_upd_nth, Nat.eqb_refl, L. replace (d <? n)%nat with true by lia. reflexivity.
      + destruct (find (fun e0 => (fst e0 =? c)%nat) kn) as [[c' k]|] eqn:Ef; [|discriminate].
        pose proof (find_some _ _ Ef) as [Hf Ec']. cbn [fst] in Ec'. apply Nat.eqb_eq in Ec'. subst c'.
        eapply G; [|reflexivity| |apply F|cbn [arm_prog]; rewrite Ef; reflexivity].
        * apply wror_lt. apply N.mod_lt. discriminate.
        * cbn [eval]. rewrite Ec, (Hn c k Hf). now rewrite Ea.
  Qed.

  Lemma arms_else l m r : (forall i, In i l -> In (dst i) outs) -> (forall o, In o outs -> b o <> Reg r) -> rg (arms b l m) r = rg m r.
  Proof.
    revert m; induction l as [|i l IH]; intros m Hd Hr; [reflexivity|].
    change (arms b (i :: l) m) with (arms b l (arm1 b m i)). rewrite IH; [|intros j Hj; apply Hd; now right|assumption].
    pose proof (Hr _ (Hd i ltac:(now left))) as Ne. assert (W : forall s v, rg (wr b s m (dst i) v) r = rg m r).
    { intros s v. unfold wr. destruct (b (dst i)) as [r'|]; [|reflexivity]. cbn [rg]. destruct (Nat.eqb_spec r r'); [congruence|reflexivity]. }
    destruct i; apply W.
  Qed.
  Definition sets_flags (i : arm) : bool := match i with MOV _ _ | MOVi _ _ => true | _ => false end.
  Lemma arms_flags l m : forallb (fun i => negb (sets_flags i)) l = true -> fl (arms b l m) = fl m.
  Proof.
    revert m; induction l as [|i l IH]; intros m H; [reflexivity|]. cbn [forallb] in H. apply andb_true_iff in H. destruct H as [Hi H].
    change (arms b (i :: l) m) with (arms b l (arm1 b m i)). rewrite IH by assumption.
    assert (W : forall d v, fl (wr b false m d v) = fl m) by (intros d v; unfold wr; destruct (b d); reflexivity).
    destruct i; try discriminate Hi; apply W.
  Qed.
End Sim.

(* ---------- halves of words ---------- *)

Lemma evens_w x : evens x = wtrunc 32 (permw f_bi32 x).
Proof.
  apply bits_inj_iff'. intros i. rewrite tb_wtrunc, tb_permw. unfold evens. rewrite tb_mkword. change (N.of_nat 32) with 32.
  destruct (N.ltb_spec i 32); [|reflexivity]. replace (i <? 64) with true by lia. cbn [andb]. f_equal. unfold f_bi32.
  replace (N.to_nat i <? 32)%nat with true by lia. reflexivity.
Qed.
Lemma odds_w x : odds x = N.shiftr (wtrunc 64 (permw f_bi32 x)) 32.
Proof.
  apply bits_inj_iff'. intros i. rewrite tb_shiftr, tb_wtrunc, tb_permw. unfold odds. rewrite tb_mkword. change (N.of_nat 32) with 32.
  destruct (N.ltb_spec i 32); [|replace (i + 32 <? 64) with false by lia; reflexivity]. replace (i + 32 <? 64) with true by lia. cbn [andb]. f_equal. unfold f_bi32.
  replace (N.to_nat (i + 32) <? 32)%nat with false by lia. lia.
Qed.
Lemma evens_lt x : evens x < 2 ^ 32. Proof. apply (mkword_lt 32). Qed.
Lemma odds_lt x : odds x < 2 ^ 32. Proof. apply (mkword_lt 32). Qed.
Lemma lane_inv e o v : e < 2 ^ 32 -> o < 2 ^ 32 -> N.lor (wtrunc 32 e) (wshl 64 o 32) = permw f_bi32 v -> e = evens v /\ o = odds v.
Proof.
  intros He Ho E. split; apply bits_inj_iff'; intros i.
  - rewrite evens_w, <- E, tb_wtrunc, N.lor_spec, tb_wtrunc, tb_wshl. destruct (N.ltb_spec i 32).
    + replace (32 <=? i) with false by lia. cbn [andb]. now rewrite andb_false_r, orb_false_r.
    + rewrite (tb_high e 32 i He) by assumption. reflexivity.
  - rewrite odds_w, <- E, tb_shiftr, tb_wtrunc, N.lor_spec, tb_wtrunc, tb_wshl. destruct (N.ltb_spec i 32).
    + replace (i + 32 <? 64) with true by lia. replace (i + 32 <? 32) with false by lia. replace (32 <=? i + 32) with true by lia. cbn [andb orb].
      f_equal. lia.
    + rewrite (tb_high o 32 i Ho) by assumption. replace (i + 32 <? 64) with false by lia. reflexivity.
Qed.

(* ---------- around the template ---------- *)

Definition ten : list nat := [x0_e; x0_o; x1_e; x1_o; x2_e; x2_o; x3_e; x3_o; x4_e; x4_o].
Definition half (j : nat) (ws : list N) : N := if (j mod 2 =? 0)%nat then evens (nth (j / 2) ws 0) else odds (nth (j / 2) ws 0).

Lemma holds_ten b m ws : holds b m ws <-> forall j, (j < 10)%nat -> rd b m (6 + j) = half j ws.
Proof.
  unfold holds. split.
  - intros (H0 & H1 & H2 & H3 & H4 & H5 & H6 & H7 & H8 & H9) j Hj. do 10 (destruct j as [|j]; [assumption|]). lia.
  - intros H. repeat split; [exact (H 0%nat ltac:(lia))|exact (H 1%nat ltac:(lia))|exact (H 2%nat ltac:(lia))|exact (H 3%nat ltac:(lia))|
      exact (H 4%nat ltac:(lia))|exact (H 5%nat ltac:(lia))|exact (H 6%nat ltac:(lia))|exact (H 7%nat ltac:(lia))|exact (H 8%nat ltac:(lia))|exact (H 9%nat ltac:(lia))].
Qed.

Lemma asm_out_nth e i : (21 <= length e)%nat -> (i < 5)%nat ->
  nth i (run asm_out e) 0 = N.lor (wtrunc 32 (nth (6 + 2 * i) e 0)) (wshl 64 (nth (7 + 2 * i) e 0) 32).
Proof.
  intros L Hi. do 21 (destruct e as [|? e]; [cbn [length] in L; lia|]).
  do 5 (destruct i as [|i]; [reflexivity|]). lia.
Qed.

Lemma ten_j j : (j < 10)%nat -> In (6 + j)%nat ten.
Proof. intros H. do 10 (destruct j as [|j]; [cbn; tauto|]). lia. Qed.

Lemma out_ten outs ins b K kn m e ws n : rel n outs ins b K kn m e -> (21 <= n)%nat -> (forall o, In o ten -> In o K) -> words5 ws ->
  firstn 5 (run asm_out e) = map (permw f_bi32) ws -> holds b m ws.
Proof.
  intros (L & HK & _) Hn Ht Hw E. apply holds_ten. intros j Hj.
  assert (Hi : (j / 2 < 5)%nat) by (apply Nat.div_lt_upper_bound; lia).
  assert (Q : nth (j / 2) (firstn 5 (run asm_out e)) 0 = permw f_bi32 (nth (j / 2) ws 0)).
  { rewrite E. apply nth_map_lt. rewrite (proj1 Hw). exact Hi. }
  rewrite nth_firstn_lt in Q by assumption. rewrite asm_out_nth in Q by lia.
  pose proof (Nat.div_mod j 2 ltac:(lia)) as D. pose proof (Nat.mod_upper_bound j 2 ltac:(lia)) as U.
  destruct (HK (6 + 2 * (j / 2))%nat) as [E1 B1]; [apply Ht; apply (ten_j (2 * (j / 2))); lia|].
  destruct (HK (7 + 2 * (j / 2))%nat) as [E2 B2]; [apply Ht; apply (ten_j (1 + 2 * (j / 2))); lia|].
  destruct (lane_inv _ _ _ B1 B2 Q) as [H1 H2]. unfold half.
  destruct (Nat.eqb_spec (j mod 2) 0) as [Z|Z].
  - replace (6 + j)%nat with (6 + 2 * (j / 2))%nat by lia. congruence.
  - replace (6 + j)%nat with (7 + 2 * (j / 2))%nat by lia. congruence.
Qed.

Section Stmt.
  Variables (A : asm) (n : nat) (pre : prog) (F : N -> list N -> list N) (sh : list (nat * nat)) (ins : list nat).
  Hypothesis Hn : (15 <= n)%nat.
  Hypothesis HF : forall ws c, words5 ws -> c < 256 ->
    firstn 5 (run (asm_in ++ pre ++ arm_prog [] (a_text A) ++ asm_out) (map (permw f_bi32) ws ++ [permw f_bi32 c] ++ repeat 0 n)) = map (permw f_bi32) (F c ws) /\ words5 (F c ws).
  Hypothesis Hck : chk (6 + n) (map fst (a_outs A)) sh (ten ++ ins) [] (a_text A) = true.
  Hypothesis Hten : incl ten (map fst (a_outs A)).
  Hypothesis Hins : a_ins A = [] /\ ins = [] \/ a_ins A <> [] /\ ins = [C_e; C_o].
  (* before the template: the operands have their values *)
  Hypothesis Hpre : forall ws c, words5 ws -> c < 256 -> (a_ins A = [] -> c = 0) -> let e := run (asm_in ++ pre) (map (permw f_bi32) ws ++ [permw f_bi32 c] ++ repeat 0 n) in
    (forall j, (j < 10)%nat -> nth (6 + j) e 0 = half j ws) /\ nth C_e e 0 = evens c /\ nth C_o e 0 = odds c.

  Lemma half_lt j ws : half j ws < 2 ^ 32.
  Proof. unfold half. destruct (j mod 2 =? 0)%nat; [apply evens_lt|apply odds_lt]. Qed.

  Lemma stmt_holds b m c ws : permitted A b ->
    (forall i o, In i ins -> ~ In i (map fst (a_outs A)) -> In o (map fst (a_outs A)) -> b i = b o -> In (i, o) sh) ->
    entry A b m c ws -> holds b (arms b (a_text A) m) (F c ws).
  Proof.
    intros (P1 & P2 & P3) Sh (L5 & W & Hc & Hh & Hi).
    assert (Hw : words5 ws) by (split; assumption).
    destruct (HF ws c Hw Hc) as [EF WF].
    assert (Z : a_ins A = [] -> c = 0) by (intros E; now rewrite E in Hi).
    pose proof (Hpre ws c Hw Hc Z) as Hp. cbv zeta in Hp.
    assert (L0 : length (map (permw f_bi32) ws ++ [permw f_bi32 c] ++ repeat 0 n) = (6 + n)%nat)
      by (rewrite !app_length, map_length, repeat_length, L5; reflexivity).
    set (e0 := map (permw f_bi32) ws ++ [permw f_bi32 c] ++ repeat 0 n) in *.
    set (outs := map fst (a_outs A)) in *.
    assert (B1 : forall o, In o outs -> exists r, b o = Reg r).
    { intros o Ho. apply in_map_iff in Ho. destruct Ho as ([o' k] & <- & Ho). destruct (P1 _ _ Ho) as (r & E & _). now exists r. }
    assert (B2 : forall o o', In o outs -> In o' outs -> b o = b o' -> o = o').
    { intros o o' Ho Ho'. apply in_map_iff in Ho. apply in_map_iff in Ho'. destruct Ho as ([p k] & <- & Ho). destruct Ho' as ([p' k'] & <- & Ho').
      exact (P2 _ _ _ _ Ho Ho'). }
    assert (R : rel (6 + n) outs ins b (ten ++ ins) [] m (run (asm_in ++ pre) e0)).
    { destruct Hp as (H1 & H2 & H3). split; [now rewrite run_length|]. split; [|split; [intros ? ? []|]].
      - intros a Ha. apply in_app_or in Ha. destruct Ha as [Ha|Ha].
        + assert (Q : exists j, (j < 10)%nat /\ a = (6 + j)%nat).
          { exists (a - 6)%nat. repeat (destruct Ha as [<-|Ha]; [split; [cbn; lia|reflexivity]|]). destruct Ha. }
          destruct Q as (j & Hj & ->). rewrite H1 by assumption. split; [now apply holds_ten|apply half_lt].
        + destruct Hins as [[_ ->]|[E ->]]; [destruct Ha|]. destruct (a_ins A); [congruence|]. destruct Hi as [I1 I2].
          destruct Ha as [<-|[<-|[]]]; [rewrite H2|rewrite H3]; (split; [assumption|]); [apply evens_lt|apply odds_lt].
      - intros a Ha. apply in_app_or in Ha. apply in_or_app. destruct Ha as [Ha|Ha]; [left; now apply Hten|now right]. }
    destruct (sim (6 + n) outs ins sh b B1 B2 Sh (a_text A) _ _ _ _ Hck R) as (K' & kn'' & R' & HK').
    refine (out_ten _ _ _ _ _ _ _ _ _ R' _ HK' WF _); [lia|].
    rewrite <- !run_app. rewrite <- !app_assoc. exact EF.
  Qed.

  Lemma stmt_else b m : nothing_else A b m (arms b (a_text A) m).
  Proof.
    clear HF Hten Hins Hpre Hn. intros r Hr. apply (arms_else (map fst (a_outs A))).
    - revert Hck. generalize (ten ++ ins), (@nil (nat * N)). induction (a_text A) as [|i l IH]; intros K kn H j Hj; [destruct Hj|].
      cbn [chk] in H. rewrite !andb_true_iff in H. destruct H as [[[[_ H2] _] _] H3]. destruct Hj as [<-|Hj]; [now apply mem_in|now apply (IH _ _ H3)].
    - intros o Ho. apply in_map_iff in Ho. destruct Ho as ([o' k] & <- & Ho). now apply (Hr _ _ Ho).
  Qed.
End Stmt.

(* ---------- the four statements ---------- *)

Lemma pre_in n : (15 <= n)%nat -> forall ws c, words5 ws -> c < 256 -> let e := run (asm_in ++ []) (map (permw f_bi32) ws ++ [permw f_bi32 c] ++ repeat 0 n) in
    (forall j, (j < 10)%nat -> nth (6 + j) e 0 = half j ws) /\ nth C_e e 0 = evens c /\ nth C_o e 0 = odds c.
Proof.
  intros Hn ws c Hw Hc. cbv zeta. destruct (words5_inv ws Hw) as (a0 & a1 & a2 & a3 & a4 & -> & _).
  replace n with (15 + (n - 15))%nat by lia. rewrite repeat_app. generalize (repeat 0 (n - 15)). intros t.
  split; [|split; [rewrite evens_w; reflexivity|rewrite odds_w; reflexivity]].
  intros j Hj. do 10 (destruct j as [|j]; [unfold half; cbn [Nat.modulo Nat.divmod Nat.div Nat.eqb Nat.sub fst snd]; rewrite ?evens_w, ?odds_w; reflexivity|]). lia.
Qed.

Lemma incl_ten A : forallb (fun o => mem o (map fst (a_outs A))) ten = true -> incl ten (map fst (a_outs A)).
Proof. rewrite forallb_forall. intros H a Ha. now apply mem_in, H. Qed.

Lemma hf_armv6 ws c : words5 ws -> c < 256 ->
  firstn 5 (run (asm_in ++ [] ++ arm_prog [] (a_text stmt_armv6) ++ asm_out) (map (permw f_bi32) ws ++ [permw f_bi32 c] ++ repeat 0 15)) = map (permw f_bi32) (ascon_round c ws) /\ words5 (ascon_round c ws).
Proof. rewrite app_nil_l. change (a_text stmt_armv6) with asm_armv6. fold (asm_round asm_armv6). fold ROUND_armv6. intros H Hc. split; [exact (check_round_sound f_bi32 15 ROUND_armv6 ck_armv6 ws c H Hc)|apply ascon_round_words]. Qed.
Lemma hf_armv6m ws c : words5 ws -> c < 256 ->
  firstn 5 (run (asm_in ++ [] ++ arm_prog [] (a_text stmt_armv6m) ++ asm_out) (map (permw f_bi32) ws ++ [permw f_bi32 c] ++ repeat 0 15)) = map (permw f_bi32) (ascon_round c ws) /\ words5 (ascon_round c ws).
Proof. rewrite app_nil_l. change (a_text stmt_armv6m) with asm_armv6m. fold (asm_round asm_armv6m). fold ROUND_armv6m. intros H Hc. split; [exact (check_round_sound f_bi32 15 ROUND_armv6m ck_armv6m ws c H Hc)|apply ascon_round_words]. Qed.
Lemma hf_armv7m ws c : words5 ws -> c < 256 ->
  firstn 5 (run (asm_in ++ [] ++ arm_prog [] (a_text stmt_armv7m) ++ asm_out) (map (permw f_bi32) ws ++ [permw f_bi32 c] ++ repeat 0 15)) = map (permw f_bi32) (rot3 (ascon_round c ws)) /\ words5 (rot3 (ascon_round c ws)).
Proof. rewrite app_nil_l. change (a_text stmt_armv7m) with asm_armv7m. fold (asm_round asm_armv7m). fold ROUND_armv7m. intros H Hc. split; [exact (v7m_round ws c H Hc)|]. apply rot3_words, ascon_round_words. Qed.
Definition pre67 : prog := [ Asg x2_e (Xor (V x2_e) (V C_e)); Asg x2_o (Xor (V x2_o) (V C_o)) ].
Lemma hf_armv67m ws c : words5 ws -> c < 256 ->
  firstn 5 (run (asm_in ++ pre67 ++ arm_prog [] (a_text stmt_armv67m) ++ asm_out) (map (permw f_bi32) ws ++ [permw f_bi32 c] ++ repeat 0 16)) = map (permw f_bi32) (ascon_round c ws) /\ words5 (ascon_round c ws).
Proof. change (a_text stmt_armv67m) with asm_armv67m. unfold pre67. fold ROUND_armv67m. intros H Hc. split; [exact (check_round_sound f_bi32 16 ROUND_armv67m ck_armv67m ws c H Hc)|apply ascon_round_words]. Qed.
Lemma pre_67 ws c : words5 ws -> c < 256 -> c = 0 -> let e := run (asm_in ++ pre67) (map (permw f_bi32) ws ++ [permw f_bi32 c] ++ repeat 0 16) in
    (forall j, (j < 10)%nat -> nth (6 + j) e 0 = half j ws) /\ nth C_e e 0 = evens c /\ nth C_o e 0 = odds c.
Proof.
  intros Hw _ ->. pose proof (pre_in 16 ltac:(lia) ws 0 Hw ltac:(lia)) as H. cbv zeta in *. rewrite app_nil_r in H. destruct H as (H & HE & HO).
  rewrite run_app. set (e := run asm_in _) in *.
  assert (L : length e = 22%nat) by (unfold e; rewrite run_length, !app_length, map_length, repeat_length, (proj1 Hw); reflexivity).
  change (evens 0) with 0 in *. change (odds 0) with 0 in *.
  assert (E : run pre67 e = e).
  { clearbody e. unfold C_e, C_o in *. do 22 (destruct e as [|? e]; [discriminate|]). destruct e; [|discriminate]. cbn [nth] in HE, HO. subst.
    cbn. rewrite !N.lxor_0_r. reflexivity. }
  rewrite E. repeat split; assumption.
Qed.

Lemma entry_ins A b m c ws : entry A b m c ws -> a_ins A = [] -> c = 0.
Proof. intros (_ & _ & _ & _ & H) E. now rewrite E in H. Qed.

(* an input that can only be an immediate shares no register *)
Lemma imm_only A b i o : permitted A b -> In (i, (false, true)) (a_ins A) -> In o (map fst (a_outs A)) -> b i <> b o.
Proof.
  intros (P1 & _ & P3) Hi Ho E. apply in_map_iff in Ho. destruct Ho as ([o' k] & <- & Ho). destruct (P1 _ _ Ho) as (r & Er & _). cbn [fst] in E. specialize (P3 _ _ _ Hi).
  rewrite E, Er in P3. destruct P3 as [X _]. discriminate.
Qed.

Lemma ins2 A x l : a_ins A = x :: l -> a_ins A = [] /\ [C_e; C_o] = [] \/ a_ins A <> [] /\ [C_e; C_o] = [C_e; C_o].
Proof. intros E. right. split; [rewrite E; discriminate|reflexivity]. Qed.
Lemma ins0 A : a_ins A = [] -> a_ins A = [] /\ @nil nat = [] \/ a_ins A <> [] /\ @nil nat = [C_e; C_o].
Proof. intros E. left. split; [exact E|reflexivity]. Qed.
Lemma ins_armv6 : a_ins stmt_armv6 = [] /\ [C_e; C_o] = [] \/ a_ins stmt_armv6 <> [] /\ [C_e; C_o] = [C_e; C_o].
Proof. exact (ins2 stmt_armv6 _ _ eq_refl). Qed.
Lemma ins_armv7m : a_ins stmt_armv7m = [] /\ [C_e; C_o] = [] \/ a_ins stmt_armv7m <> [] /\ [C_e; C_o] = [C_e; C_o].
Proof. exact (ins2 stmt_armv7m _ _ eq_refl). Qed.
Lemma ins_armv6m : a_ins stmt_armv6m = [] /\ [C_e; C_o] = [] \/ a_ins stmt_armv6m <> [] /\ [C_e; C_o] = [C_e; C_o].
Proof. exact (ins2 stmt_armv6m _ _ eq_refl). Qed.
Lemma ins_armv67m : a_ins stmt_armv67m = [] /\ @nil nat = [] \/ a_ins stmt_armv67m <> [] /\ @nil nat = [C_e; C_o].
Proof. exact (ins0 stmt_armv67m eq_refl). Qed.

Lemma le16 : (15 <= 16)%nat. Proof. lia. Qed.

Lemma armv6_ok b m c ws : permitted stmt_armv6 b -> entry stmt_armv6 b m c ws ->
  let m' := arms b (a_text stmt_armv6) m in holds b m' (ascon_round c ws) /\ nothing_else stmt_armv6 b m m' /\ flags_kept stmt_armv6 m m'.
Proof.
  intros P E. cbv zeta. assert (C : chk (6 + 15) (map fst (a_outs stmt_armv6)) [] (ten ++ [C_e; C_o]) [] (a_text stmt_armv6) = true) by (vm_compute; reflexivity).
  split; [|split].
  - refine (stmt_holds stmt_armv6 15 [] ascon_round [] [C_e; C_o] (le_n 15) hf_armv6 C (incl_ten stmt_armv6 eq_refl) ins_armv6
      (fun ws c Hw Hc _ => pre_in 15 (le_n 15) ws c Hw Hc) b m c ws P _ E).
    intros i o Hi _ Ho Eb. exfalso. revert Eb. apply (imm_only stmt_armv6); try assumption. destruct Hi as [<-|[<-|[]]]; cbn; auto.
  - exact (stmt_else stmt_armv6 15 [] [C_e; C_o] C b m).
  - intros _. apply arms_flags. reflexivity.
Qed.

Lemma armv7m_ok b m c ws : permitted stmt_armv7m b -> entry stmt_armv7m b m c ws ->
  let m' := arms b (a_text stmt_armv7m) m in holds b m' (rot3 (ascon_round c ws)) /\ nothing_else stmt_armv7m b m m' /\ flags_kept stmt_armv7m m m'.
Proof.
  intros P E. cbv zeta. assert (C : chk (6 + 15) (map fst (a_outs stmt_armv7m)) [] (ten ++ [C_e; C_o]) [] (a_text stmt_armv7m) = true) by (vm_compute; reflexivity).
  split; [|split].
  - refine (stmt_holds stmt_armv7m 15 [] (fun c ws => rot3 (ascon_round c ws)) [] [C_e; C_o] (le_n 15) hf_armv7m C (incl_ten stmt_armv7m eq_refl) ins_armv7m
      (fun ws c Hw Hc _ => pre_in 15 (le_n 15) ws c Hw Hc) b m c ws P _ E).
    intros i o Hi _ Ho Eb. exfalso. revert Eb. apply (imm_only stmt_armv7m); try assumption. destruct Hi as [<-|[<-|[]]]; cbn; auto.
  - exact (stmt_else stmt_armv7m 15 [] [C_e; C_o] C b m).
  - intros _. apply arms_flags. reflexivity.
Qed.

Lemma armv67m_ok b m ws : permitted stmt_armv67m b -> entry stmt_armv67m b m 0 ws ->
  let m' := arms b (a_text stmt_armv67m) m in holds b m' (ascon_round 0 ws) /\ nothing_else stmt_armv67m b m m' /\ flags_kept stmt_armv67m m m'.
Proof.
  intros P E. cbv zeta. assert (C : chk (6 + 16) (map fst (a_outs stmt_armv67m)) [] (ten ++ []) [] (a_text stmt_armv67m) = true) by (vm_compute; reflexivity).
  split; [|split].
  - refine (stmt_holds stmt_armv67m 16 pre67 ascon_round [] [] le16 hf_armv67m C (incl_ten stmt_armv67m eq_refl) ins_armv67m
      (fun ws c Hw Hc Z => pre_67 ws c Hw Hc (Z eq_refl)) b m 0 ws P _ E). intros i o [].
  - exact (stmt_else stmt_armv67m 16 [] [] C b m).
  - intros _. apply arms_flags. reflexivity.
Qed.

Lemma armv6m_ok b m c ws : permitted stmt_armv6m b -> (forall o, In o (map fst (a_outs stmt_armv6m)) -> shares b C_o o -> o = x4_o) -> entry stmt_armv6m b m c ws ->
  let m' := arms b (a_text stmt_armv6m) m in holds b m' (ascon_round c ws) /\ nothing_else stmt_armv6m b m m'.
Proof.
  intros P S E. cbv zeta. set (sh := (C_o, x4_o) :: map (fun o => (C_e, o)) (map fst (a_outs stmt_armv6m))).
  assert (C : chk (6 + 15) (map fst (a_outs stmt_armv6m)) sh (ten ++ [C_e; C_o]) [] (a_text stmt_armv6m) = true) by (vm_compute; reflexivity).
  split.
  - refine (stmt_holds stmt_armv6m 15 [] ascon_round sh [C_e; C_o] (le_n 15) hf_armv6m C (incl_ten stmt_armv6m eq_refl) ins_armv6m
      (fun ws c Hw Hc _ => pre_in 15 (le_n 15) ws c Hw Hc) b m c ws P _ E).
    intros i o Hi _ Ho Eb. destruct Hi as [<-|[<-|[]]].
    + right. apply in_map_iff. exists o. split; [reflexivity|assumption].
    + left. f_equal. symmetry. apply S; [assumption|]. apply in_map_iff in Ho. destruct Ho as ([o' k] & <- & Ho). destruct (proj1 P _ _ Ho) as (r & Er & _).
      exists r. cbn [fst] in *. split; congruence.
  - exact (stmt_else stmt_armv6m 15 sh [C_e; C_o] C b m).
Qed.

(* ---------- the register file is too small ---------- *)

Lemma registers_run_out b r r' : permitted stmt_armv6m b -> b C_e = Reg r -> b C_o = Reg r' -> r <> r' ->
  exists o, In o (map fst (a_outs stmt_armv6m)) /\ (shares b C_e o \/ shares b C_o o).
Proof.
  intros (P1 & P2 & P3) Ee Eo Ne.
  pose proof (P3 C_e true true ltac:(cbn; auto)) as Ue. rewrite Ee in Ue. destruct Ue as (_ & Ue & _).
  pose proof (P3 C_o true true ltac:(cbn; auto)) as Uo. rewrite Eo in Uo. destruct Uo as (_ & Uo & _).
  set (reg := fun o => match b o with Reg q => q | Imm _ => 0%nat end).
  set (outs := map fst (a_outs stmt_armv6m)) in *.
  assert (R : forall o, In o outs -> b o = Reg (reg o) /\ usable (reg o)).
  { intros o Ho. apply in_map_iff in Ho. destruct Ho as ([o' k] & <- & Ho). destruct (P1 _ _ Ho) as (q & Eq & Uq & _). cbn [fst]. unfold reg. rewrite Eq. auto. }
  destruct (in_dec Nat.eq_dec r (map reg outs)) as [H|H].
  { apply in_map_iff in H. destruct H as (o & E & Ho). exists o. split; [assumption|]. left. exists r. split; [assumption|]. rewrite <- E. now apply R. }
  destruct (in_dec Nat.eq_dec r' (map reg outs)) as [H'|H'].
  { apply in_map_iff in H'. destruct H' as (o & E & Ho). exists o. split; [assumption|]. right. exists r'. split; [assumption|]. rewrite <- E. now apply R. }
  exfalso. assert (ND : NoDup (r :: r' :: map reg outs)).
  { constructor; [intros [E|Hin]; [congruence|contradiction]|]. constructor; [assumption|].
    assert (NO : NoDup outs) by (repeat constructor; cbn; intuition discriminate).
    assert (Inj : forall o o', In o outs -> In o' outs -> reg o = reg o' -> o = o').
    { intros o o' Ho Ho' E. destruct (R o Ho) as [E1 _], (R o' Ho') as [E2 _]. apply in_map_iff in Ho. apply in_map_iff in Ho'.
      destruct Ho as ([p k] & <- & Ho), Ho' as ([p' k'] & <- & Ho'). apply (P2 _ _ _ _ Ho Ho'). cbn [fst] in *. congruence. }
    clear - NO Inj. induction outs as [|o l IH]; cbn [map]; [constructor|]. inversion NO; subst. constructor.
    - intros Hin. apply in_map_iff in Hin. destruct Hin as (o' & E & Ho'). apply Inj in E; [subst; contradiction|now right|now left].
    - apply IH; [assumption|]. intros a a' Ha Ha'. apply Inj; now right. }
  assert (I : incl (r :: r' :: map reg outs) (14%nat :: seq 0 13)).
  { assert (U : forall q, usable q -> In q (14%nat :: seq 0 13)) by (intros q [Hq| ->]; [right; apply in_seq; lia|now left]).
    intros q [<-|[<-|Hq]]; [now apply U..|]. apply in_map_iff in Hq. destruct Hq as (o & <- & Ho). now apply U, R. }
  pose proof (NoDup_incl_length ND I) as L. cbn in L. lia.
Qed.

(* ---------- witnesses ---------- *)

(* The operands in r0-r12; the inputs in lr and in r. *)
Definition bw (r : nat) (o : nat) : place :=
  if (o =? x0_e)%nat then Reg 0 else if (o =? x1_e)%nat then Reg 1 else if (o =? x2_e)%nat then Reg 2 else if (o =? x3_e)%nat then Reg 3 else
  if (o =? x4_e)%nat then Reg 4 else if (o =? tmp0)%nat then Reg 5 else if (o =? tmp1)%nat then Reg 6 else if (o =? tmp2)%nat then Reg 7 else
  if (o =? x0_o)%nat then Reg 8 else if (o =? x1_o)%nat then Reg 9 else if (o =? x2_o)%nat then Reg 10 else if (o =? x3_o)%nat then Reg 11 else
  if (o =? x4_o)%nat then Reg 12 else if (o =? C_e)%nat then Reg 14 else if (o =? C_o)%nat then Reg r else Imm 0.
Definition ws_w : list N := [0x0123456789abcdef; 0xfedcba9876543210; 0x0f1e2d3c4b5a6978; 0x1122334455667788; 0x8877665544332211].
Definition mw (r : nat) (c : N) : cpu :=
  Cpu (fun i => if (i =? r)%nat then odds c else if (i =? 14)%nat then evens c else
    nth i (map evens ws_w ++ [0; 0; 0] ++ map odds ws_w) 0) (true, true).

Lemma permitted_w r : In r [5; 6; 7; 14]%nat -> permitted stmt_armv6m (bw r).
Proof.
  intros Hr. split; [|split].
  - intros o c H. cbn in H. decompose [or] H; clear H; try contradiction;
      match goal with E : _ = (o, c) |- _ => injection E as <- <- end; eexists; (split; [reflexivity|]); cbn; unfold usable; split; try lia; try discriminate.
  - intros o c o' c' H H'. apply (in_map fst) in H. apply (in_map fst) in H'. cbn in H, H'.
    decompose [or] H; clear H; try contradiction; subst o; decompose [or] H'; clear H'; try contradiction; subst o'; cbn; intros E; first [reflexivity|discriminate E].
  - intros i rs im H. cbn in H. destruct H as [E|[E|[]]]; injection E as <- <- <-; cbn.
    + split; [reflexivity|]. split; [now right|]. intros o c H _. cbn in H. decompose [or] H; clear H; try contradiction;
        match goal with E : _ = (o, c) |- _ => injection E as <- <- end; reflexivity.
    + split; [reflexivity|]. split; [cbn in Hr; unfold usable; lia|]. intros o c H _. cbn in H. decompose [or] H; clear H; try contradiction;
        match goal with E : _ = (o, c) |- _ => injection E as <- <- end; reflexivity.
Qed.

Lemma entry_w r : In r [5; 6; 7]%nat -> entry stmt_armv6m (bw r) (mw r 0xf0) 0xf0 ws_w.
Proof.
  intros Hr. split; [reflexivity|]. split; [repeat constructor|]. split; [reflexivity|].
  destruct Hr as [<-|[<-|[<-|[]]]]; (split; [repeat split; vm_compute; reflexivity|split; vm_compute; reflexivity]).
Qed.

Lemma wrong_w r : In r [5; 6; 7]%nat -> rd (bw r) (arms (bw r) (a_text stmt_armv6m) (mw r 0xf0)) x0_e <> evens (nth 0 (ascon_round 0xf0 ws_w) 0).
Proof. intros [<-|[<-|[<-|[]]]]; vm_compute; discriminate. Qed.

Lemma assignment_wrong t : In t [tmp0; tmp1; tmp2] ->
  exists b m ws, permitted stmt_armv6m b /\ shares b C_o t /\ entry stmt_armv6m b m 0xf0 ws /\ ~ holds b (arms b (a_text stmt_armv6m) m) (ascon_round 0xf0 ws).
Proof.
  intros Ht. assert (Q : exists r, In r [5; 6; 7]%nat /\ shares (bw r) C_o t).
  { destruct Ht as [<-|[<-|[<-|[]]]]; [exists 5%nat|exists 6%nat|exists 7%nat]; (split; [cbn; auto|eexists; split; reflexivity]). }
  destruct Q as (r & Hr & S). exists (bw r), (mw r 0xf0), ws_w. split; [apply permitted_w; cbn in *; tauto|]. split; [assumption|].
  split; [now apply entry_w|]. intros H. exact (wrong_w r Hr (proj1 H)).
Qed.

(* ---------- both halves of the constant in one register of their own ---------- *)

Lemma entry_w14 : entry stmt_armv6m (bw 14) (mw 14 0xf0) 0xf0 ws_w.
Proof.
  split; [reflexivity|]. split; [repeat constructor|]. split; [reflexivity|]. split; [repeat split; vm_compute; reflexivity|split; vm_compute; reflexivity].
Qed.
Lemma alone_w14 o : In o (map fst (a_outs stmt_armv6m)) -> shares (bw 14) C_o o -> o = x4_o.
Proof.
  intros H (r & E1 & E2). injection E1 as <-. cbn in H. decompose [or] H; clear H; try contradiction; subst o; discriminate E2.
Qed.

(* ---------- the flags after the movs ---------- *)

Lemma arm1_rg b i m m' : rg m = rg m' -> rg (arm1 b m i) = rg (arm1 b m' i).
Proof.
  intros E. assert (R : forall o, rd b m o = rd b m' o) by (intros o; unfold rd; now rewrite E).
  destruct i; cbn [arm1]; rewrite ?R; unfold wr; destruct (b _); try exact E; cbn [rg]; now rewrite E.
Qed.
Lemma arms_rg b l : forall m m', rg m = rg m' -> rg (arms b l m) = rg (arms b l m').
Proof. induction l as [|i l IH]; cbn; intros m m' E; [exact E|]. apply IH, arm1_rg, E. Qed.

Lemma flags_last b l d a m m' r : b d = Reg r -> rg m = rg m' -> fl (arms b (l ++ [MOV d a]) m) = fl (arms b (l ++ [MOV d a]) m').
Proof.
  intros E H. unfold arms. rewrite !fold_left_app. cbn [fold_left arm1]. fold (arms b l m) (arms b l m'). unfold wr. rewrite E. cbn [fl].
  unfold rd. now rewrite (arms_rg b l m m' H).
Qed.

Lemma text_last : exists l, a_text stmt_armv6m = l ++ [MOV x2_o tmp2].
Proof. exists (removelast asm_armv6m). reflexivity. Qed.

Lemma flags_differ b g : permitted stmt_armv6m b -> exists n z, n && z = false /\ fl (arms b (a_text stmt_armv6m) (Cpu g (n, z))) <> (n, z).
Proof.
  intros P. destruct text_last as (l & E). rewrite E. destruct (proj1 P x2_o (Plus false)) as (r & Er & _); [cbn; tauto|].
  pose proof (flags_last b l x2_o tmp2 (Cpu g (false, false)) (Cpu g (false, true)) r Er eq_refl) as H.
  destruct (fl (arms b (l ++ [MOV x2_o tmp2]) (Cpu g (false, false)))) as [[|] [|]] eqn:F.
  1,2: exists false, false; split; [reflexivity|]; rewrite F; discriminate.
  - exists false, false. split; [reflexivity|]; rewrite F; discriminate.
  - exists false, true. split; [reflexivity|]. rewrite <- H. discriminate.
Qed.
Lemma flags_wrong b g : permitted stmt_armv6m b ->
  exists n z, n && z = false /\ ~ flags_kept stmt_armv6m (Cpu g (n, z)) (arms b (a_text stmt_armv6m) (Cpu g (n, z))).
Proof.
  intros P. destruct (flags_differ b g P) as (n & z & H1 & H2). exists n, z. split; [exact H1|]. intros F. apply H2. exact (F eq_refl).
Qed.

(* ---------- opt_32_armv67m needs all registers ---------- *)

Lemma takes_all b r : permitted stmt_armv67m b -> usable r -> exists o, In o (map fst (a_outs stmt_armv67m)) /\ b o = Reg r.
Proof.
  intros (P1 & P2 & _) U.
  set (reg := fun o => match b o with Reg q => q | Imm _ => 0%nat end).
  set (outs := map fst (a_outs stmt_armv67m)) in *.
  assert (R : forall o, In o outs -> b o = Reg (reg o) /\ usable (reg o)).
  { intros o Ho. apply in_map_iff in Ho. destruct Ho as ([o' k] & <- & Ho). destruct (P1 _ _ Ho) as (q & Eq & Uq & _). cbn [fst]. unfold reg. rewrite Eq. auto. }
  assert (V : forall q, usable q -> In q (14%nat :: seq 0 13)) by (intros q [Hq| ->]; [right; apply in_seq; lia|now left]).
  assert (ND : NoDup (map reg outs)).
  { assert (NO : NoDup outs) by (repeat constructor; cbn; intuition discriminate).
    assert (Inj : forall o o', In o outs -> In o' outs -> reg o = reg o' -> o = o').
    { intros o o' Ho Ho' E. destruct (R o Ho) as [E1 _], (R o' Ho') as [E2 _]. apply in_map_iff in Ho. apply in_map_iff in Ho'.
      destruct Ho as ([p k] & <- & Ho), Ho' as ([p' k'] & <- & Ho'). apply (P2 _ _ _ _ Ho Ho'). cbn [fst] in *. congruence. }
    clear - NO Inj. induction outs as [|o l IH]; cbn [map]; [constructor|]. inversion NO; subst. constructor.
    - intros Hin. apply in_map_iff in Hin. destruct Hin as (o' & E & Ho'). apply Inj in E; [subst; contradiction|now right|now left].
    - apply IH; [assumption|]. intros a a' Ha Ha'. apply Inj; now right. }
  assert (I : incl (map reg outs) (14%nat :: seq 0 13)).
  { intros q Hq. apply in_map_iff in Hq. destruct Hq as (o & <- & Ho). now apply V, R. }
  assert (L : (length (14%nat :: seq 0 13) <= length (map reg outs))%nat) by (rewrite map_length; apply le_n).
  pose proof (NoDup_length_incl ND L I r (V r U)) as H. apply in_map_iff in H. destruct H as (o & <- & Ho). exists o. split; [assumption|]. now apply R.
Qed.

(* ---------- assignments for the examples ---------- *)

(* The outputs in order in r0-r12, lr; the inputs as immediates. *)
Definition bi (A : asm) (c : N) (o : nat) : place :=
  match List.find (fun p => (fst p =? o)%nat) (combine (map fst (a_outs A)) (seq 0 13 ++ [14%nat])) with
  | Some (_, r) => Reg r
  | None => if (o =? C_e)%nat then Imm (evens c) else Imm (odds c)
  end.
(* Registers with the state ws where the statement expects it. *)
Definition mi (A : asm) (ws : list N) : cpu :=
  Cpu (fun r => match List.find (fun p => (snd p =? r)%nat) (combine (map fst (a_outs A)) (seq 0 13 ++ [14%nat])) with
                | Some (o, _) => if (o <? 16)%nat then half (o - 6) ws else 0
                | None => 0
                end) (false, true).

Ltac outs_cases H o c := cbn in H; decompose [or] H; clear H; try contradiction; match goal with E : _ = (o, c) |- _ => injection E as <- <- end.
Ltac perm_bi := split; [|split];
  [ intros o c H; outs_cases H o c; eexists; (split; [reflexivity|]); cbn; unfold usable; split; try lia; try discriminate
  | intros o c o' c' H H'; apply (in_map fst) in H; apply (in_map fst) in H'; cbn in H, H';
    decompose [or] H; clear H; try contradiction; subst o; decompose [or] H'; clear H'; try contradiction; subst o'; intros E; first [reflexivity|discriminate E]
  | intros i rs im H; cbn in H; first [ contradiction H | decompose [or] H; clear H; try contradiction; match goal with E : _ = (i, (rs, im)) |- _ => injection E as <- <- <- end; reflexivity ] ].
Ltac entry_bi := split; [reflexivity|]; split; [repeat constructor|]; split; [reflexivity|]; split; [repeat split; vm_compute; reflexivity|];
  first [reflexivity|split; vm_compute; reflexivity].

Lemma ex_armv6 : permitted stmt_armv6 (bi stmt_armv6 0xf0) /\ entry stmt_armv6 (bi stmt_armv6 0xf0) (mi stmt_armv6 ws_w) 0xf0 ws_w.
Proof. split; [perm_bi|entry_bi]. Qed.
Lemma ex_armv7m : permitted stmt_armv7m (bi stmt_armv7m 0xf0) /\ entry stmt_armv7m (bi stmt_armv7m 0xf0) (mi stmt_armv7m ws_w) 0xf0 ws_w.
Proof. split; [perm_bi|entry_bi]. Qed.
Lemma ex_armv67m : permitted stmt_armv67m (bi stmt_armv67m 0) /\ entry stmt_armv67m (bi stmt_armv67m 0) (mi stmt_armv67m ws_w) 0 ws_w.
Proof. split; [perm_bi|entry_bi]. Qed.
(* Low registers first, as the letter l requires. *)
Definition bm (c : N) (o : nat) : place := if (o =? C_e)%nat then Imm (evens c) else if (o =? C_o)%nat then Imm (odds c) else bw 14 o.
Lemma ex_armv6m : permitted stmt_armv6m (bm 0xf0) /\ entry stmt_armv6m (bm 0xf0) (mw 14 0xf0) 0xf0 ws_w /\ (forall o, shares (bm 0xf0) C_o o -> False).
Proof. split; [perm_bi|]. split; [entry_bi|]. intros o (r & E & _). discriminate E. Qed.
Lemma ex_armv6m_lr : permitted stmt_armv6m (bw 14) /\ entry stmt_armv6m (bw 14) (mw 14 0xf0) 0xf0 ws_w /\
  (forall o, In o (map fst (a_outs stmt_armv6m)) -> shares (bw 14) C_o o -> o = x4_o).
Proof. split; [apply permitted_w; cbn; tauto|]. split; [exact entry_w14|exact alone_w14]. Qed.
Lemma ex_two : permitted stmt_armv6m (bw 5) /\ bw 5 C_e = Reg 14 /\ bw 5 C_o = Reg 5 /\ 14%nat <> 5%nat.
Proof. split; [apply permitted_w; cbn; tauto|]. repeat split. discriminate. Qed.
