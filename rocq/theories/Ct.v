(* A relational logic for traces of two runs: same accesses, branches and permutation calls; the list of permutation calls is computed
   along the way. Proofs only. *)
From Verif Require Import Base SpecPerm Words Mem Vocab MemProof Trace.
From Verif Require RefIsap.
Open Scope N_scope.
Open Scope cm_scope.

(* Whenever both runs end normally they added the same events u to the trace, the permutation calls in u are ps, and the results are
   related. *)
Definition ct {A} (ps : list N) (R : A -> A -> Prop) (f g : M A) : Prop :=
  forall m1 m2 t a s1 b s2, layout m1 m2 -> f (St m1 t) = Ok a s1 -> g (St m2 t) = Ok b s2 ->
  exists u, strc s1 = u ++ t /\ strc s2 = u ++ t /\ perms u = ps /\ layout (smem s1) (smem s2) /\ R a b.

Lemma perms_app u t : perms (u ++ t) = perms t ++ perms u.
Proof. unfold perms. now rewrite map_app, concat_app, rev_app_distr. Qed.

Lemma ct_ret {A} (R : A -> A -> Prop) a b : R a b -> ct [] R (ret a) (ret b).
Proof. intros H m1 m2 t a' s1 b' s2 L E1 E2. injection E1 as <- <-. injection E2 as <- <-. exists []. auto. Qed.

Lemma ct_bind {A B} ps qs (R : A -> A -> Prop) (Q : B -> B -> Prop) f g f' g' :
  ct ps R f g -> (forall a b, R a b -> ct qs Q (f' a) (g' b)) -> ct (ps ++ qs) Q (bind f f') (bind g g').
Proof.
  intros H1 H2 m1 m2 t a s1 b s2 L E1 E2. unfold bind in *.
  destruct (f (St m1 t)) as [x [mx tx]| | |] eqn:Ef; try discriminate.
  destruct (g (St m2 t)) as [y [my ty]| | |] eqn:Eg; try discriminate.
  destruct (H1 _ _ _ _ _ _ _ L Ef Eg) as (u & U1 & U2 & P & L' & HR). cbn [strc smem] in *. subst tx ty.
  destruct (H2 x y HR _ _ _ _ _ _ _ L' E1 E2) as (w & W1 & W2 & P' & L2 & HQ).
  exists (w ++ u). rewrite W1, W2, !app_assoc. split; auto. split; auto. split; auto. now rewrite perms_app, P, P'.
Qed.

Lemma ct_eq {A} ps qs (R : A -> A -> Prop) f g : ct ps R f g -> ps = qs -> ct qs R f g.
Proof. now intros H <-. Qed.
Lemma ct_weaken {A} ps (R Q : A -> A -> Prop) f g : ct ps R f g -> (forall a b, R a b -> Q a b) -> ct ps Q f g.
Proof.
  intros H HQ m1 m2 t a s1 b s2 L E1 E2. destruct (H _ _ _ _ _ _ _ L E1 E2) as (u & ? & ? & ? & ? & ?). exists u. auto 6.
Qed.
Lemma ct_any {A} ps (R : A -> A -> Prop) f g : ct ps R f g -> ct ps any f g.
Proof. intros H. apply (ct_weaken _ _ _ _ _ H). unfold any. auto. Qed.

(* Silent statements in front, and as the whole. *)
Lemma ct_bind0 {A B} qs (R : A -> A -> Prop) (Q : B -> B -> Prop) f g f' g' :
  ct [] R f g -> (forall a b, R a b -> ct qs Q (f' a) (g' b)) -> ct qs Q (bind f f') (bind g g').
Proof. intros H1 H2. exact (ct_bind [] qs R Q f g f' g' H1 H2). Qed.

Lemma ct_emit e : ct (match e with EPerm r => [r] | _ => [] end) eq (emit e) (emit e).
Proof.
  intros m1 m2 t a s1 b s2 L E1 E2. injection E1 as <- <-. injection E2 as <- <-. exists [e]. split; auto. split; auto. split; auto.
  now destruct e.
Qed.
Lemma ct_fail {A} ps (R : A -> A -> Prop) g : ct ps R fail_ub g.
Proof. intros m1 m2 t a s1 b s2 L E1. discriminate. Qed.
Lemma ct_branch b : ct [] (fun x y => x = b /\ y = b) (branch b) (branch b).
Proof. eapply ct_bind0; [apply (ct_emit (EBr b))|]. intros. now apply ct_ret. Qed.
Lemma ct_if {A} ps (R : A -> A -> Prop) b x y x' y' : (b = true -> ct ps R x x') -> (b = false -> ct ps R y y') ->
  ct ps R (if_ b x y) (if_ b x' y').
Proof. intros H1 H2. unfold if_. eapply ct_bind0; [apply ct_branch|]. intros c c' [-> ->]. destruct b; auto. Qed.
(* The decisions are equal for a reason. *)
Lemma ct_if2 {A} ps (R : A -> A -> Prop) b b' x y x' y' : b = b' -> (b = true -> ct ps R x x') -> (b = false -> ct ps R y y') ->
  ct ps R (if_ b x y) (if_ b' x' y').
Proof. intros <-. apply ct_if. Qed.

Lemma ct_load_ p : ct [] any (load_ p) (load_ p).
Proof.
  intros m1 m2 t a s1 b s2 L E1 E2. unfold load_ in *. cbn [smem] in *.
  destruct (rd1 m1 p); try discriminate. destruct (rd1 m2 p); try discriminate.
  injection E1 as <- <-. injection E2 as <- <-. exists []. cbn. unfold any. auto.
Qed.
Lemma ct_store_ p v1 v2 : ct [] eq (store_ p v1) (store_ p v2).
Proof.
  intros m1 m2 t a s1 b s2 L E1 E2. unfold store_ in *. cbn [smem strc] in *.
  destruct (wr1 m1 p v1) eqn:W1; try discriminate. destruct (wr1 m2 p v2) eqn:W2; try discriminate.
  injection E1 as <- <-. injection E2 as <- <-. exists []. cbn. split; auto. split; auto. split; auto. split; auto. eapply layout_wr1; eauto.
Qed.
Lemma ct_load p : ct [] any (load p) (load p).
Proof. eapply ct_bind0; [apply (ct_emit (ERd p 1))|]. intros ? ? _. apply ct_load_. Qed.
Lemma ct_store p v1 v2 : ct [] eq (store p v1) (store p v2).
Proof. eapply ct_bind0; [apply (ct_emit (EWr p 1))|]. intros ? ? _. apply ct_store_. Qed.
Lemma ct_loads_ n p : ct [] (fun a b => length a = n /\ length b = n) (loads_ n p) (loads_ n p).
Proof.
  revert p; induction n as [|n IH]; intros p; cbn [loads_]; [now apply ct_ret|].
  eapply ct_bind0; [apply ct_load_|]. intros a b _. eapply ct_bind0; [apply IH|]. intros x y [H1 H2]. apply ct_ret. cbn. auto.
Qed.
Lemma ct_stores_ vs vs' p : length vs = length vs' -> ct [] eq (stores_ vs p) (stores_ vs' p).
Proof.
  revert vs' p; induction vs as [|v vs IH]; intros [|v' vs'] p H; try discriminate; cbn [stores_]; [now apply ct_ret|].
  eapply ct_bind0; [apply ct_store_|]. intros ? ? _. apply IH. now injection H.
Qed.
Lemma ct_loadn c n p : ct [] (fun a b => length a = n /\ length b = n) (loadn c n p) (loadn c n p).
Proof.
  unfold loadn. destruct (aligned c p n); [|apply ct_fail].
  eapply ct_bind0; [apply (ct_emit (ERd _ _))|]. intros ? ? _. apply ct_loads_.
Qed.
Lemma ct_storen c vs vs' p : length vs = length vs' -> ct [] eq (storen c vs p) (storen c vs' p).
Proof.
  intros H. unfold storen. rewrite H. destruct (aligned c p (length vs')); [|apply ct_fail].
  eapply ct_bind0; [apply (ct_emit (EWr _ _))|]. intros ? ? _. now apply ct_stores_.
Qed.
Lemma ct_load_ull cf p : ct [] any (RefIsap.load_ull cf p) (RefIsap.load_ull cf p).
Proof. eapply ct_bind0; [apply ct_loadn|]. intros. now apply ct_ret. Qed.
Lemma ct_store_ull cf p x y : ct [] eq (RefIsap.store_ull cf p x) (RefIsap.store_ull cf p y).
Proof. apply ct_storen. now rewrite !word_le_length. Qed.

Lemma ct_with_block {A} ps (R : A -> A -> Prop) n f g : (forall p, ct ps R (f p) (g p)) -> ct ps R (with_block n f) (with_block n g).
Proof.
  intros H m1 m2 t a s1 b s2 L E1 E2. unfold with_block in *. cbn [smem strc] in *.
  rewrite <- (layout_length _ _ L) in E2.
  destruct (f (P (length m1) 0) (St (m1 ++ [uninit n]) t)) as [x [mx tx]| | |] eqn:Ef; try discriminate.
  destruct (g (P (length m1) 0) (St (m2 ++ [uninit n]) t)) as [y [my ty]| | |] eqn:Eg; try discriminate.
  injection E1 as <- <-. injection E2 as <- <-.
  destruct (H _ _ _ _ _ _ _ _ (layout_app _ _ _ _ L eq_refl) Ef Eg) as (u & U1 & U2 & Pu & L' & HR). cbn [smem strc] in *.
  exists u. split; auto. split; auto. split; auto. split; auto. now apply layout_removelast.
Qed.

(* Loops. R k relates the loop-carried values after k iterations. *)
Lemma ct_for_nat {A} (R : nat -> A -> A -> Prop) (ps : nat -> list N) n (f g : N -> A -> M A) : forall i j a b,
  (forall k a b, (j <= k < j + n)%nat -> R k a b -> ct (ps k) (R (S k)) (f (i + N.of_nat (k - j)) a) (g (i + N.of_nat (k - j)) b)) ->
  R j a b -> ct (concat (map ps (seq j n))) (R (j + n)%nat) (for_nat n i f a) (for_nat n i g b).
Proof.
  induction n as [|n IH]; intros i j a b H HR; cbn [for_nat seq map concat].
  - rewrite Nat.add_0_r. eapply ct_bind0; [apply ct_branch|]. intros. now apply ct_ret.
  - eapply ct_bind0; [apply ct_branch|]. intros. eapply ct_bind.
    + specialize (H j a b ltac:(lia) HR). rewrite Nat.sub_diag in H. change (N.of_nat 0) with 0 in H. rewrite N.add_0_r in H. exact H.
    + intros a' b' HR'. replace (j + S n)%nat with (S j + n)%nat by lia. apply IH; auto.
      intros k x y Hk Hxy. specialize (H k x y ltac:(lia) Hxy). now replace (i + 1 + N.of_nat (k - S j)) with (i + N.of_nat (k - j)) by lia.
Qed.
Lemma ct_for {A} (R : nat -> A -> A -> Prop) (ps : nat -> list N) n y (f g : N -> A -> M A) a b :
  y = N.of_nat n ->
  (forall k a b, (k < n)%nat -> R k a b -> ct (ps k) (R (S k)) (f (N.of_nat k) a) (g (N.of_nat k) b)) ->
  R 0%nat a b -> ct (concat (map ps (seq 0 n))) (R n) (for_ 0 y f a) (for_ 0 y g b).
Proof.
  intros -> H HR. unfold for_. replace (N.to_nat (N.of_nat n - 0)) with n by lia.
  apply (ct_for_nat R ps n f g 0 0 a b); auto. intros k x y Hk. rewrite Nat.sub_0_r. rewrite N.add_0_l. apply H. lia.
Qed.
(* The same calls in every iteration. *)
Lemma concat_map_const {A} (q : A) j n : concat (map (fun _ : nat => [q]) (seq j n)) = repeat q n.
Proof. revert j; induction n as [|n IH]; intros j; cbn; auto. now rewrite IH. Qed.
Lemma concat_map_nil {A} j n : concat (map (fun _ : nat => @nil A) (seq j n)) = [].
Proof. revert j; induction n as [|n IH]; intros j; cbn; auto. Qed.
Lemma concat_repeat1 {A} (x : A) n : concat (repeat [x] n) = repeat x n.
Proof. induction n as [|n IH]; cbn; auto. now rewrite IH. Qed.
Lemma ct_for_silent {A} (R : A -> A -> Prop) y (f g : N -> A -> M A) a b :
  (forall i a b, R a b -> ct [] R (f i a) (g i b)) -> R a b -> ct [] R (for_ 0 y f a) (for_ 0 y g b).
Proof.
  intros H HR. eapply ct_eq; [apply (ct_for (fun _ => R) (fun _ => []) (N.to_nat y)); auto; lia|apply concat_map_nil].
Qed.
Lemma ct_for1 {A} (R : A -> A -> Prop) r n y (f g : N -> A -> M A) a b : y = N.of_nat n ->
  (forall i a b, R a b -> ct [r] R (f i a) (g i b)) -> R a b -> ct (repeat r n) R (for_ 0 y f a) (for_ 0 y g b).
Proof.
  intros -> H HR. eapply ct_eq; [apply (ct_for (fun _ => R) (fun _ => [r]) n); auto|apply concat_map_const].
Qed.

Lemma ct_while {A} (R : nat -> A -> A -> Prop) ps cond (f g : A -> M A) n : forall fuel fuel' j a b,
  (forall k a b, (j <= k <= n)%nat -> R k a b -> cond a = (k <? n)%nat /\ cond b = (k <? n)%nat) ->
  (forall k a b, (j <= k < n)%nat -> R k a b -> ct ps (R (S k)) (f a) (g b)) ->
  (j <= n)%nat -> R j a b ->
  ct (concat (repeat ps (n - j))) (R n) (while_ fuel cond f a) (while_ fuel' cond g b).
Proof.
  induction fuel as [|fuel IH]; intros fuel' j a b Hc Hb Hj HR; [intros m1 m2 t x s1 y s2 L E1; discriminate|].
  destruct fuel' as [|fuel']; [intros m1 m2 t x s1 y s2 L E1 E2; discriminate|].
  cbn [while_]. destruct (Hc j a b ltac:(lia) HR) as [-> ->]. eapply ct_bind0; [apply ct_branch|]. intros c c' [-> ->].
  destruct (Nat.ltb_spec j n) as [E|E].
  - replace (n - j)%nat with (S (n - S j)) by lia. cbn [repeat concat].
    eapply ct_bind; [apply (Hb j); [lia|exact HR]|]. intros a' b' HR'.
    apply IH; [intros; apply Hc; auto; lia|intros; apply Hb; auto; lia|lia|auto].
  - replace (n - j)%nat with 0%nat by lia. cbn [repeat concat]. replace n with j by lia. now apply ct_ret.
Qed.
Lemma ct_while0 {A} (R : nat -> A -> A -> Prop) ps cond (f g : A -> M A) n fuel fuel' a b :
  (forall k a b, (k <= n)%nat -> R k a b -> cond a = (k <? n)%nat /\ cond b = (k <? n)%nat) ->
  (forall k a b, (k < n)%nat -> R k a b -> ct ps (R (S k)) (f a) (g b)) ->
  R 0%nat a b -> ct (concat (repeat ps n)) (R n) (while_ fuel cond f a) (while_ fuel' cond g b).
Proof.
  intros Hc Hb HR. pose proof (ct_while R ps cond f g n fuel fuel' 0 a b) as H. rewrite Nat.sub_0_r in H. apply H; auto.
  - intros. apply Hc; auto. lia.
  - intros. apply Hb; auto. lia.
  - lia.
Qed.

(* From ct to the trace of one run. *)
Lemma layout_refl m : layout m m. Proof. reflexivity. Qed.
Lemma ct_one {A} ps (R : A -> A -> Prop) f m t a s : ct ps R f f -> f (St m t) = Ok a s ->
  exists u, strc s = u ++ t /\ perms u = ps.
Proof. intros H E. destruct (H _ _ _ _ _ _ _ (layout_refl m) E E) as (u & U & _ & Pu & _). eauto. Qed.
