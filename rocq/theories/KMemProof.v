(* KeccakP-400-reference.c access by access (KMem.v). Proofs only. *)
From Verif Require Import Base Prog SpecPerm Words RefPerm KeccakProof Mem Vocab MemProof RefLib KMem.
From Verif Require RefIsap.
Open Scope N_scope.
Open Scope cm_scope.

(* A lane array in memory: None is an uninitialised lane. *)
Definition lane_cells (o : option N) : block := match o with Some w => map Some (word_le 2 w) | None => [None; None] end.
Definition ob (l : list (option N)) : block := concat (map lane_cells l).

Lemma lane_cells_length o : length (lane_cells o) = 2%nat.
Proof. destruct o; cbn [lane_cells]; [now rewrite map_length, word_le_length|reflexivity]. Qed.
Lemma ob_length l : length (ob l) = (2 * length l)%nat.
Proof. induction l as [|o l IH]; [reflexivity|]. unfold ob in *. cbn [map concat length]. rewrite app_length, IH, lane_cells_length. lia. Qed.
Lemma ob_cons o l : ob (o :: l) = lane_cells o ++ ob l.
Proof. reflexivity. Qed.
Lemma nth_ob l k i d : (k < length l)%nat -> (i < 2)%nat -> nth (2 * k + i) (ob l) d = nth i (lane_cells (nth k l None)) d.
Proof.
  revert k; induction l as [|o l IH]; intros k Hk Hi; cbn [length] in Hk; [lia|]. rewrite ob_cons.
  destruct k as [|k].
  - cbn [nth]. rewrite app_nth1; [now replace (2 * 0 + i)%nat with i by lia|]. rewrite lane_cells_length. lia.
  - rewrite app_nth2 by (rewrite lane_cells_length; lia). rewrite lane_cells_length.
    replace (2 * S k + i - 2)%nat with (2 * k + i)%nat by lia. cbn [nth]. apply IH; lia.
Qed.
Lemma ob_upd l k w : (k < length l)%nat -> splice (ob l) (2 * k) (map Some (word_le 2 w)) = ob (upd_nth l k (Some w)).
Proof.
  revert k; induction l as [|o l IH]; intros k Hk; cbn [length] in Hk; [lia|]. rewrite ob_cons.
  destruct k as [|k]; cbn [upd_nth]; rewrite ob_cons.
  - unfold splice. cbn [Nat.mul Nat.add]. rewrite firstn_O. cbn [app]. f_equal.
    rewrite map_length, word_le_length. destruct o; reflexivity.
  - rewrite <- IH by lia. unfold splice. rewrite map_length, word_le_length.
    replace (2 * S k)%nat with (length (lane_cells o) + 2 * k)%nat by (rewrite lane_cells_length; lia).
    rewrite firstn_app_2, <- app_assoc. f_equal. f_equal. f_equal.
    rewrite <- Nat.add_assoc, skipn_app. rewrite skipn_all2 by lia. cbn [app]. f_equal. lia.
Qed.

Lemma upd_app_l {X} (m l : list X) k x : (k < length m)%nat -> upd_nth (m ++ l) k x = upd_nth m k x ++ l.
Proof. revert k; induction m as [|y m IH]; intros [|k] H; cbn [length] in H; try lia; cbn [app upd_nth]; [reflexivity|]. f_equal. apply IH. lia. Qed.
Lemma upd_twice {X} (l : list X) n (x y : X) : upd_nth (upd_nth l n x) n y = upd_nth l n y.
Proof. revert n; induction l as [|z l IH]; intros [|n]; cbn [upd_nth]; auto. f_equal. apply IH. Qed.
Lemma upd_map {X Y} (f : X -> Y) l j x : upd_nth (map f l) j (f x) = map f (upd_nth l j x).
Proof. revert j; induction l as [|z l IH]; intros [|j]; cbn [upd_nth map]; auto. f_equal. apply IH. Qed.

Section Access.
  Variable cf : cfg.

  Lemma r_get (m : mem) b l k i w : blk m b = ob l -> even_ok cf b -> i = N.of_nat k -> (k < length l)%nat ->
    nth k l None = Some w -> w < 2 ^ 16 -> runs (get cf (P b 0) i) m w m.
  Proof.
    intros Hb He -> Hk Hn Hw. unfold get. eapply runs_bind.
    - replace (padd (P b 0) (2 * N.of_nat k)) with (P b (N.of_nat (2 * k))) by (unfold padd; cbn [pb po]; f_equal; lia).
      apply (runs_loadn cf (word_le 2 w)); [|now apply aligned2].
      intros j Hj. rewrite word_le_length in Hj. unfold rd1, inside, padd. cbn [pb po]. rewrite Hb, ob_length.
      replace (_ <? _) with true by (symmetry; apply N.ltb_lt; lia).
      replace (N.to_nat (N.of_nat (2 * k) + N.of_nat j)) with (2 * k + j)%nat by lia.
      rewrite nth_ob, Hn by auto. cbn [lane_cells].
      rewrite (nth_indep _ None (Some 0)) by now rewrite map_length, word_le_length. now rewrite map_nth.
    - eapply runs_eq; [apply runs_ret| |reflexivity]. now apply (le_word_word_le 2).
  Qed.
  Lemma r_set (m : mem) b l k i v : blk m b = ob l -> even_ok cf b -> i = N.of_nat k -> (k < length l)%nat ->
    runs (set cf (P b 0) i v) m tt (upd_nth m b (ob (upd_nth l k (Some (v mod 2 ^ 16))))).
  Proof.
    intros Hb He -> Hk. unfold set.
    replace (padd (P b 0) (2 * N.of_nat k)) with (P b (N.of_nat (2 * k))) by (unfold padd; cbn [pb po]; f_equal; lia).
    eapply runs_eq; [apply runs_storen; rewrite word_le_length; [|now apply aligned2]|reflexivity|].
    - apply room_block. rewrite Hb, ob_length. lia.
    - unfold putp, put. cbn [pb po]. rewrite Nat2N.id, Hb. f_equal. now apply ob_upd.
  Qed.

  (* Memory during one of the functions: the state in block b of m, the local arrays behind m. *)
  Definition mk (m : mem) (b : nat) (A : list (option N)) (ls : list (list (option N))) : mem := upd_nth m b (ob A) ++ map ob ls.
  Definition loc (m : mem) (j : nat) : ptr := P (length m + j) 0.

  Variables (m : mem) (b : nat).
  Hypothesis Hb : (b < length m)%nat.
  Hypothesis He : forall b', b' = b \/ (length m <= b')%nat -> even_ok cf b'.

  Lemma mk_A A ls : blk (mk m b A ls) b = ob A.
  Proof.
    unfold mk, blk. rewrite app_nth1 by now rewrite upd_nth_length. fold (blk (upd_nth m b (ob A)) b).
    rewrite blk_upd, Nat.eqb_refl. now destruct (Nat.ltb_spec b (length m)); [|lia].
  Qed.
  Lemma mk_L A ls j l : nth_error ls j = Some l -> blk (mk m b A ls) (length m + j) = ob l.
  Proof.
    intros H. unfold mk, blk. rewrite app_nth2; rewrite upd_nth_length; [|lia].
    replace (length m + j - length m)%nat with j by lia. apply nth_error_nth. now apply map_nth_error.
  Qed.
  Lemma mk_updA A ls A' : upd_nth (mk m b A ls) b (ob A') = mk m b A' ls.
  Proof.
    unfold mk. rewrite upd_app_l by now rewrite upd_nth_length. f_equal. apply upd_twice.
  Qed.
  Lemma mk_updL A ls j l : upd_nth (mk m b A ls) (length m + j) (ob l) = mk m b A (upd_nth ls j l).
  Proof.
    unfold mk. rewrite <- (upd_nth_length m b (ob A)). rewrite upd_app2. f_equal. apply upd_map.
  Qed.

  Lemma g_A A ls k i w : i = N.of_nat k -> (k < length A)%nat -> nth k A None = Some w -> w < 2 ^ 16 ->
    runs (get cf (P b 0) i) (mk m b A ls) w (mk m b A ls).
  Proof. intros. eapply r_get; eauto. apply mk_A. Qed.
  Lemma g_L A ls j l k i w : nth_error ls j = Some l -> i = N.of_nat k -> (k < length l)%nat -> nth k l None = Some w -> w < 2 ^ 16 ->
    runs (get cf (loc m j) i) (mk m b A ls) w (mk m b A ls).
  Proof. intros. eapply r_get; eauto; [now apply mk_L|]. apply He. lia. Qed.
  Lemma s_A A ls k i v : i = N.of_nat k -> (k < length A)%nat ->
    runs (set cf (P b 0) i v) (mk m b A ls) tt (mk m b (upd_nth A k (Some (v mod 2 ^ 16))) ls).
  Proof. intros. eapply runs_eq; [eapply r_set; eauto; apply mk_A|reflexivity|]. apply mk_updA. Qed.
  Lemma s_L A ls j l k i v : nth_error ls j = Some l -> i = N.of_nat k -> (k < length l)%nat ->
    runs (set cf (loc m j) i v) (mk m b A ls) tt (mk m b A (upd_nth ls j (upd_nth l k (Some (v mod 2 ^ 16))))).
  Proof. intros. eapply runs_eq; [eapply r_set; eauto; [now apply mk_L|apply He; lia]|reflexivity|]. apply mk_updL. Qed.

  Lemma w_lanes {X} n (f : ptr -> M X) A ls (a : X) A' ls' l' :
    runs (f (loc m (length ls))) (mk m b A (ls ++ [repeat None n])) a (mk m b A' (ls' ++ [l'])) ->
    runs (with_lanes n f) (mk m b A ls) a (mk m b A' ls').
  Proof.
    intros H. unfold with_lanes. apply (runs_with_block _ _ _ _ _ (ob l')).
    unfold loc in H. unfold mk in *. rewrite app_length, upd_nth_length, map_length.
    rewrite !map_app in H. cbn [map] in H. rewrite !app_assoc in H.
    replace (uninit (2 * n)) with (ob (repeat None n)); [exact H|].
    clear. unfold uninit. induction n as [|n IH]; [reflexivity|]. cbn [repeat]. rewrite ob_cons, IH.
    replace (2 * S n)%nat with (2 + 2 * n)%nat by lia. rewrite repeat_app. reflexivity.
  Qed.
End Access.

Lemma r_table (t : list N) i v (m : mem) : nth_error t (N.to_nat i) = Some v -> runs (table t i) m v m.
Proof. intros H. unfold table. rewrite H. apply runs_ret. Qed.
Lemma r_for_S {X} n i i' (body : N -> X -> M X) a a1 a2 (m m1 m2 : mem) : i + 1 = i' ->
  runs (body i a) m a1 m1 -> runs (for_nat n i' body a1) m1 a2 m2 -> runs (for_nat (S n) i body a) m a2 m2.
Proof. intros <- H1 H2. cbn [for_nat]. eapply runs_bind; [apply runs_branch|]. eapply runs_bind; eauto. Qed.
Lemma r_for_O {X} i (body : N -> X -> M X) a (m : mem) : runs (for_nat 0 i body a) m a m.
Proof. cbn [for_nat]. eapply runs_bind; [apply runs_branch|apply runs_ret]. Qed.
Lemma g_A' cf (m : mem) b A ls k i w : (b < length m)%nat -> (forall b', b' = b \/ (length m <= b')%nat -> even_ok cf b') ->
  i = N.of_nat k -> (k < length A)%nat -> nth k A None = Some w -> w < 2 ^ 16 -> runs (get cf (P b 0) i) (mk m b A ls) w (mk m b A ls).
Proof. intros. eapply g_A; eassumption. Qed.
Lemma g_L' cf (m : mem) b A ls j l k i w : (b < length m)%nat -> (forall b', b' = b \/ (length m <= b')%nat -> even_ok cf b') ->
  nth_error ls j = Some l -> i = N.of_nat k -> (k < length l)%nat -> nth k l None = Some w -> w < 2 ^ 16 ->
  runs (get cf (loc m j) i) (mk m b A ls) w (mk m b A ls).
Proof. intros. eapply g_L; eassumption. Qed.
Lemma s_A' cf (m : mem) b A ls k i v v' A' : (b < length m)%nat -> (forall b', b' = b \/ (length m <= b')%nat -> even_ok cf b') ->
  i = N.of_nat k -> (k < length A)%nat -> wtrunc 16 v = v' -> upd_nth A k (Some v') = A' ->
  runs (set cf (P b 0) i v) (mk m b A ls) tt (mk m b A' ls).
Proof. intros H1 H2 H3 H4 <- <-. rewrite wtrunc_mod. now apply s_A. Qed.
Lemma s_L' cf (m : mem) b A ls j l k i v v' ls' : (b < length m)%nat -> (forall b', b' = b \/ (length m <= b')%nat -> even_ok cf b') ->
  nth_error ls j = Some l -> i = N.of_nat k -> (k < length l)%nat -> wtrunc 16 v = v' -> upd_nth ls j (upd_nth l k (Some v')) = ls' ->
  runs (set cf (loc m j) i v) (mk m b A ls) tt (mk m b A ls').
Proof. intros H0 H1 H2 H3 H4 <- <-. rewrite wtrunc_mod. eapply s_L; eassumption. Qed.
Lemma tr_small v : v < 2 ^ 16 -> wtrunc 16 v = v.
Proof. intros H. rewrite wtrunc_mod. now apply N.mod_small. Qed.
Lemma tr_lt v : wtrunc 16 v < 2 ^ 16.
Proof. rewrite wtrunc_mod. now apply N.mod_lt. Qed.
Lemma xor_lt a b : a < 2 ^ 16 -> b < 2 ^ 16 -> N.lxor a b < 2 ^ 16.
Proof. apply lxor_lt. Qed.
Lemma w_lanes' cf (m : mem) b {X} n (f : ptr -> M X) A ls (a : X) A' ls' l' l0 p k1 k2 : (b < length m)%nat -> (forall b', b' = b \/ (length m <= b')%nat -> even_ok cf b') ->
  loc m (length ls) = p -> ls ++ [repeat None n] = l0 ->
  runs (f p) (mk m b A l0) a (mk m b A' k1) -> k1 = k2 -> k2 = ls' ++ [l'] ->
  runs (with_lanes n f) (mk m b A ls) a (mk m b A' ls').
Proof. intros H1 H2 <- <- H -> ->. eapply w_lanes; eauto. Qed.

Ltac le_nat := cbn [length]; repeat constructor.
Ltac low := lazymatch goal with
  | |- N.lxor _ _ < _ => apply xor_lt; low
  | |- wtrunc _ _ < _ => apply tr_lt
  | |- 0 < _ => reflexivity
  | |- _ => assumption end.
Ltac upd := cbn [upd_nth]; reflexivity.
Ltac small := first [apply tr_small; low | reflexivity].
Lemma r_shl {X} p o (v : X) (m : mem) : p < 2 ^ 16 -> o <= 15 -> runs (if p * 2 ^ o <? 2 ^ 31 then ret v else fail_ub) m v m.
Proof.
  intros Hp Ho. assert (H : p * 2 ^ o < 2 ^ 31).
  { apply N.lt_le_trans with (2 ^ 16 * 2 ^ o).
    - apply N.mul_lt_mono_pos_r; [|exact Hp]. apply N.neq_0_lt_0, N.pow_nonzero. discriminate.
    - change (2 ^ 31) with (2 ^ 16 * 2 ^ 15). apply N.mul_le_mono_l, N.pow_le_mono_r; [discriminate|exact Ho]. }
  apply N.ltb_lt in H. rewrite H. apply runs_ret.
Qed.
Ltac last_block := lazymatch goal with
  | |- [?a] = _ => exact (eq_refl ([] ++ [a]))
  | |- [?a; ?b] = _ => exact (eq_refl ([a] ++ [b])) end.
Ltac one :=
  cbv beta;
  lazymatch goal with
  | |- runs (bind _ _) _ _ _ => eapply runs_bind; [one|one]
  | |- runs (for_ 0 5 ?f ?a) _ _ _ => change (for_ 0 5 f a) with (for_nat 5 0 f a); one
  | |- runs (for_nat (S _) ?i _ _) _ _ _ => let i' := eval vm_compute in (i + 1) in eapply (r_for_S _ i i' _ _ _ _ _ _ _ eq_refl); [one|one]
  | |- runs (for_nat O _ _ _) _ _ _ => apply r_for_O
  | |- runs (table ?t ?i) _ _ _ =>
      let v := eval vm_compute in (nth (N.to_nat i) t 0) in apply (r_table t i v); reflexivity
  | |- runs (ROL16 ?a ?o) _ _ _ =>
      let c := eval vm_compute in (negb (o =? 0)) in unfold ROL16 at 1; apply runs_if; change (negb (o =? 0)) with c; cbv iota; one
  | |- runs (get _ (loc _ ?j) ?i) _ _ _ =>
      let k := eval vm_compute in (N.to_nat i) in
      eapply (g_L' _ _ _ _ _ j _ k i); [eassumption|eassumption|reflexivity|reflexivity|le_nat|reflexivity|low]
  | |- runs (get _ _ ?i) _ _ _ =>
      let k := eval vm_compute in (N.to_nat i) in
      eapply (g_A' _ _ _ _ _ k i); [eassumption|eassumption|reflexivity|le_nat|reflexivity|low]
  | |- runs (set _ (loc _ ?j) ?i _) _ _ _ =>
      let k := eval vm_compute in (N.to_nat i) in
      eapply (s_L' _ _ _ _ _ j _ k i); [eassumption|eassumption|reflexivity|reflexivity|le_nat|small|upd]
  | |- runs (set _ _ ?i _) _ _ _ =>
      let k := eval vm_compute in (N.to_nat i) in
      eapply (s_A' _ _ _ _ _ k i); [eassumption|eassumption|reflexivity|le_nat|small|upd]
  | |- runs (with_lanes _ _) (mk _ _ _ ?ls) _ _ =>
      let j := eval cbv in (length ls) in
      match goal with |- runs _ (mk ?m _ _ _) _ _ =>
        eapply (w_lanes' _ _ _ _ _ _ _ _ _ _ _ _ (loc m j)); [eassumption|eassumption|reflexivity|cbn [app repeat]; reflexivity|one|reflexivity|last_block] end
  | |- runs (if _ <? 2 ^ 31 then _ else _) _ _ _ => apply r_shl; [low|discriminate]
  | |- runs (ret _) _ _ _ => apply runs_ret
  end.

Section Functions.
  Variables (cf : cfg) (m : mem) (b : nat).
  Hypothesis Hb : (b < length m)%nat.
  Hypothesis He : forall b', b' = b \/ (length m <= b')%nat -> even_ok cf b'.

  (* Step f of the round, with whatever the scratch words of the word model contain. *)
  Definition step_ok (f : ptr -> M unit) (p : prog) : Prop := forall ws ts, words25 ws -> length ts = 35%nat ->
    let ws' := firstn 25 (run p (ws ++ ts)) in
    words25 ws' /\ runs (f (P b 0)) (mk m b (map Some ws) []) tt (mk m b (map Some ws') []).

  Lemma step_intro f p : 
    (forall ws ts, words25 ws -> length ts = 35%nat -> exists ws', firstn 25 (run p (ws ++ ts)) = ws' /\
       runs (f (P b 0)) (mk m b (map Some ws) []) tt (mk m b (map Some ws') []) /\ words25 ws') -> step_ok f p.
  Proof. intros H ws ts H1 H2. destruct (H ws ts H1 H2) as (w & <- & H3 & H4). split; assumption. Qed.

  Ltac symbolic := cbv -[N.lxor N.land wtrunc wshl N.shiftr wnot N.pow].
  Ltac same := lazymatch goal with
    | |- ?a :: ?u = ?b :: ?v => apply (f_equal2 cons); [first [reflexivity|f_equal; symmetry; apply tr_small; low|f_equal; apply tr_small; low]|same]
    | |- [] = [] => reflexivity end.
  Ltac step f :=
    apply step_intro; intros ws ts [Hl Hw] Ht;
    do 25 (destruct ws as [|? ws]; [discriminate|]); destruct ws; [|discriminate]; clear Hl;
    do 35 (destruct ts as [|? ts]; [discriminate|]); destruct ts; [|discriminate]; clear Ht;
    repeat match goal with H : Forall _ (_ :: _) |- _ => inversion H; subst; clear H end;
    eexists; split; [symbolic; reflexivity|]; cbn [map]; split;
      [unfold f; eapply runs_eq; [one|reflexivity|apply (f_equal2 (mk m b)); [symbolic; same|try reflexivity]]
      |split; [reflexivity|]; repeat (apply Forall_cons; [low|]); apply Forall_nil].

  Lemma m_rho : step_ok (rho cf) k_ref_rho.
  Proof. step rho. Qed.
  Lemma m_theta : step_ok (theta cf) k_ref_theta.
  Proof. step theta. Qed.
  Lemma m_pi : step_ok (pi cf) k_ref_pi.
  Proof. step pi. Qed.
  Lemma m_chi : step_ok (chi cf) k_ref_chi.
  Proof. step chi. Qed.

  Lemma rc_lt i : (i < 20)%nat -> nth_error KeccakRoundConstants i = Some (nth i KeccakRoundConstants 0) /\ nth i KeccakRoundConstants 0 < 2 ^ 16.
  Proof.
    intros H. split.
    - now apply nth_error_nth'.
    - revert i H. assert (F : Forall (fun k => k < 2 ^ 16) KeccakRoundConstants) by (repeat constructor).
      intros i H. apply (Forall_nth_lt (fun k => k < 2 ^ 16)); [exact F|exact H].
  Qed.

  Lemma m_iota i : (i < 20)%nat -> step_ok (fun A => iota cf A (N.of_nat i)) (k_ref_iota (N.of_nat i)).
  Proof.
    intros Hi ws ts [Hl Hw] Ht. cbv zeta. destruct ws as [|w ws]; [discriminate|].
    destruct (rc_lt i Hi) as [Hn Hk].
    assert (E : firstn 25 (run (k_ref_iota (N.of_nat i)) ((w :: ws) ++ ts)) = N.lxor w (nth i KeccakRoundConstants 0) :: ws).
    { change (run (k_ref_iota (N.of_nat i)) ((w :: ws) ++ ts)) with
        ((N.lxor w (nth (N.to_nat (N.of_nat i)) KeccakRoundConstants 0) :: ws) ++ ts).
      rewrite Nat2N.id. set (l := _ :: ws). assert (Hl' : length l = 25%nat) by exact Hl.
      rewrite firstn_app, Hl', Nat.sub_diag, firstn_O, app_nil_r. apply firstn_all2. lia. }
    rewrite E. apply Forall_cons_iff in Hw as [H0 Hw]. pose proof (xor_lt _ _ H0 Hk) as Hx. split.
    - split; [exact Hl|]. constructor; assumption.
    - unfold iota. cbn [map]. eapply runs_bind; [eapply (g_A' _ _ _ _ _ 0 (index 0 0) w); try eassumption; [reflexivity|cbn [length]; lia|reflexivity]|].
      eapply runs_bind; [apply r_table; rewrite Nat2N.id; exact Hn|].
      eapply (s_A' _ _ _ _ _ 0 (index 0 0)); try eassumption; [reflexivity|cbn [length]; lia|apply tr_small; exact Hx|reflexivity].
  Qed.

  Lemma step_seq f g p q : step_ok f p -> step_ok g q -> step_ok (fun A => f A ;; g A) (p ++ q).
  Proof.
    intros Hf Hg ws ts Hw Ht. cbv zeta. destruct (Hf ws ts Hw Ht) as [Hw1 R1].
    rewrite run_app. rewrite <- (firstn_skipn 25 (run p (ws ++ ts))).
    destruct (Hg _ (skipn 25 (run p (ws ++ ts))) Hw1) as [Hw2 R2].
    - destruct Hw as [Hl _]. rewrite skipn_length, run_length, app_length, Hl, Ht. reflexivity.
    - split; [exact Hw2|]. eapply runs_bind; [exact R1|exact R2].
  Qed.

  Lemma m_round i ws : (i < 20)%nat -> words25 ws ->
    words25 (keccak_ref_round (N.of_nat i) ws) /\
    runs (KeccakP400Round cf (P b 0) (N.of_nat i)) (mk m b (map Some ws) []) tt (mk m b (map Some (keccak_ref_round (N.of_nat i) ws)) []).
  Proof.
    intros Hi Hw.
    exact (step_seq _ _ _ _ m_theta (step_seq _ _ _ _ m_rho (step_seq _ _ _ _ m_pi (step_seq _ _ _ _ m_chi (m_iota i Hi)))) ws (repeat 0 35) Hw eq_refl).
  Qed.

End Functions.

Lemma rounds_gen (body : N -> M unit) (F : N -> list N -> list N) (m : mem) b n :
  (forall i ws, (i < n)%nat -> words25 ws -> words25 (F (N.of_nat i) ws) /\
     runs (body (N.of_nat i)) (mk m b (map Some ws) []) tt (mk m b (map Some (F (N.of_nat i) ws)) [])) ->
  forall r k ws ws', (r + k = n)%nat -> words25 ws -> ws' = fold_left (fun ws i => F i ws) (map N.of_nat (seq k r)) ws ->
  words25 ws' /\ runs (for_nat r (N.of_nat k) (fun i _ => body i) tt) (mk m b (map Some ws) []) tt (mk m b (map Some ws') []).
Proof.
  intros H. induction r as [|r IH]; intros k ws ws' Hr Hw ->; cbn [seq map fold_left].
  - split; [exact Hw|apply r_for_O].
  - destruct (H k ws ltac:(lia) Hw) as [Hw1 R1].
    destruct (IH (S k) _ _ ltac:(lia) Hw1 eq_refl) as [Hw2 R2]. split; [exact Hw2|].
    eapply (r_for_S _ _ (N.of_nat (S k))); [lia|exact R1|exact R2].
Qed.

(* The lanes of a state of bytes. *)
Lemma ob_bytes s : bytes s -> forall n, length s = (2 * n)%nat -> ob (map Some (map le_word (chunks 2 s))) = map Some s.
Proof.
  intros Hs n. revert s Hs. induction n as [|n IH]; intros s Hs Hl.
  - destruct s; [reflexivity|discriminate].
  - destruct s as [|x [|y s]]; try (simpl in Hl; lia).
    change (x :: y :: s) with ([x; y] ++ s). rewrite chunks_app by (auto; lia). cbn [map]. rewrite ob_cons, IH.
    + rewrite map_app. f_equal. cbn [lane_cells]. f_equal. apply word_le_le_word; [|reflexivity].
      apply Forall_cons_iff in Hs as [Hx Hs]. apply Forall_cons_iff in Hs as [Hy _]. repeat constructor; assumption.
    + now inversion Hs as [|? ? Hx Hs']; inversion Hs'.
    + simpl in Hl. lia.
Qed.

Lemma ob_words ws : ob (map Some ws) = map Some (concat (map (word_le 2) ws)).
Proof. induction ws as [|w ws IH]; [reflexivity|]. cbn [map concat]. rewrite ob_cons, IH, map_app. reflexivity. Qed.
Lemma upd_self (m : mem) b : upd_nth m b (blk m b) = m.
Proof. unfold blk. revert b; induction m as [|x m IH]; intros [|b]; cbn [upd_nth nth]; auto. f_equal. apply IH. Qed.

Lemma runs_KMem cf m b s r : (forall b', b' = b \/ (length m <= b')%nat -> even_ok cf b') -> (r <= 20)%nat -> blk m b = map Some s -> bytes s -> length s = 50%nat ->
  runs (Permute_Nrounds cf (P b 0) (N.of_nat r)) m tt (upd_nth m b (map Some (keccak_p r s))).
Proof.
  intros He' Hr Hb Hs Hl.
  assert (Hbm : (b < length m)%nat).
  { destruct (Nat.ltb_spec b (length m)); auto. unfold blk in Hb. rewrite nth_overflow in Hb by auto. destruct s; discriminate. }
  assert (Ew : keccak_ref_words (N.of_nat r) (map le_word (chunks 2 s)) =
    fold_left (fun ws i => keccak_ref_round i ws) (map N.of_nat (seq (20 - r) r)) (map le_word (chunks 2 s))).
  { unfold keccak_ref_words. now rewrite (keccak_indices_ok r Hr). }
  destruct (rounds_gen (fun i => KeccakP400Round cf (P b 0) i) keccak_ref_round m b 20 (fun i ws => m_round cf m b Hbm He' i ws)
              r (20 - r) _ _ ltac:(lia) (words25_chunks s Hs Hl) Ew) as [_ R].
  unfold Permute_Nrounds, KeccakP400OnWords, for_.
  replace ((20 + 2 ^ 32 - N.of_nat r) mod 2 ^ 32) with (N.of_nat (20 - r)).
  2:{ replace (20 + 2 ^ 32 - N.of_nat r) with (N.of_nat (20 - r) + 1 * 2 ^ 32) by lia. rewrite N.mod_add by discriminate. rewrite N.mod_small; lia. }
  replace (N.to_nat (20 - N.of_nat (20 - r))) with r by lia.
  assert (E1 : mk m b (map Some (map le_word (chunks 2 s))) [] = m).
  { unfold mk. cbn [map]. rewrite app_nil_r, (ob_bytes s Hs 25 Hl), <- Hb. apply upd_self. }
  assert (E2 : forall ws, mk m b (map Some ws) [] = upd_nth m b (map Some (concat (map (word_le 2) ws)))).
  { intros ws. unfold mk. cbn [map]. rewrite app_nil_r. f_equal. apply ob_words. }
  rewrite E1, E2, (keccak_ref_bytes r s Hr Hs Hl) in R. exact R.
Qed.

(* More rounds than there are: maxNrRounds - nrRounds wraps around and the loop ends before its first round. *)
Lemma runs_KMem_none cf s m r : (20 < r)%nat -> N.of_nat r < 2 ^ 32 -> runs (Permute_Nrounds cf s (N.of_nat r)) m tt m.
Proof.
  intros H1 H2. unfold Permute_Nrounds, KeccakP400OnWords, for_. rewrite N.mod_small by lia.
  replace (N.to_nat (20 - (20 + 2 ^ 32 - N.of_nat r))) with 0%nat by lia. apply r_for_O.
Qed.
