(* A relational logic for traces (same addresses, same branches), and one for the permutation calls. Proofs only. *)
From Verif Require Import Base Prog SpecPerm Words RefPerm Mem Vocab MemProof.
Open Scope N_scope.
Open Scope cm_scope.

(* Whenever both runs end normally they left the same trace, and related results. *)
Definition rel {A} (R : A -> A -> Prop) (f g : M A) : Prop :=
  forall m1 m2 t a s1 b s2, layout m1 m2 -> f (St m1 t) = Ok a s1 -> g (St m2 t) = Ok b s2 ->
  strc s1 = strc s2 /\ layout (smem s1) (smem s2) /\ R a b.
Definition any {A} (a b : A) : Prop := True.

Lemma layout_length m1 m2 : layout m1 m2 -> length m1 = length m2.
Proof. intros H. apply (f_equal (@length nat)) in H. now rewrite !map_length in H. Qed.

Lemma layout_blk m1 m2 b : layout m1 m2 -> length (blk m1 b) = length (blk m2 b).
Proof.
  intros H. unfold blk. assert (E : forall m : mem, length (nth b m []) = nth b (map (@length cell) m) 0%nat).
  { intros m. change 0%nat with (length (@nil cell)). now rewrite map_nth. }
  now rewrite !E, H.
Qed.

Lemma layout_wr1 m1 m2 p v1 v2 m1' m2' : layout m1 m2 -> wr1 m1 p v1 = Some m1' -> wr1 m2 p v2 = Some m2' -> layout m1' m2'.
Proof.
  intros H E1 E2. unfold wr1 in *. destruct (inside m1 p), (inside m2 p); try discriminate.
  injection E1 as <-. injection E2 as <-. unfold layout.
  assert (U : forall (m : mem) b x, map (@length cell) (upd_nth m b x) = upd_nth (map (@length cell) m) b (length x)).
  { intros m; induction m as [|h m IH]; intros [|b] x; cbn [upd_nth map]; auto. now rewrite IH. }
  etransitivity; [apply U|]. symmetry. etransitivity; [apply U|]. rewrite !upd_nth_length, (layout_blk m1 m2 _ H). f_equal.
  symmetry. exact H.
Qed.

Lemma layout_app (m1 m2 : mem) (b1 b2 : block) : layout m1 m2 -> length b1 = length b2 -> layout (m1 ++ [b1]) (m2 ++ [b2]).
Proof.
  intros H E. unfold layout. etransitivity; [apply map_app|]. symmetry. etransitivity; [apply map_app|].
  cbn [map]. rewrite E. f_equal. symmetry. exact H.
Qed.

Lemma layout_removelast m1 m2 : layout m1 m2 -> layout (removelast m1) (removelast m2).
Proof.
  unfold layout. intros H. assert (E : forall m : mem, map (@length cell) (removelast m) = removelast (map (@length cell) m)).
  { intros m; induction m as [|h m IH]; auto. destruct m; auto. cbn [removelast map] in *. now rewrite IH. }
  etransitivity; [apply E|]. symmetry. etransitivity; [apply E|]. f_equal. symmetry. exact H.
Qed.

Lemma rel_ret {A} (R : A -> A -> Prop) a b : R a b -> rel R (ret a) (ret b).
Proof. intros H m1 m2 t a' s1 b' s2 L E1 E2. injection E1 as <- <-. injection E2 as <- <-. auto. Qed.

Lemma rel_bind {A B} (R : A -> A -> Prop) (Q : B -> B -> Prop) f g f' g' :
  rel R f g -> (forall a b, R a b -> rel Q (f' a) (g' b)) -> rel Q (bind f f') (bind g g').
Proof.
  intros H1 H2 m1 m2 t a s1 b s2 L E1 E2. unfold bind in *.
  destruct (f (St m1 t)) as [x [mx tx]| | |] eqn:Ef; try discriminate.
  destruct (g (St m2 t)) as [y [my ty]| | |] eqn:Eg; try discriminate.
  destruct (H1 _ _ _ _ _ _ _ L Ef Eg) as (T & L' & HR). cbn [strc smem] in *. subst ty.
  exact (H2 x y HR _ _ _ _ _ _ _ L' E1 E2).
Qed.

Lemma rel_weaken {A} (R Q : A -> A -> Prop) f g : rel R f g -> (forall a b, R a b -> Q a b) -> rel Q f g.
Proof. intros H HQ m1 m2 t a s1 b s2 L E1 E2. destruct (H _ _ _ _ _ _ _ L E1 E2) as (? & ? & ?). auto. Qed.

Lemma rel_emit e : rel eq (emit e) (emit e).
Proof. intros m1 m2 t a s1 b s2 L E1 E2. injection E1 as <- <-. injection E2 as <- <-. auto. Qed.

Lemma rel_fail {A} (R : A -> A -> Prop) g : rel R fail_ub g.
Proof. intros m1 m2 t a s1 b s2 L E1. discriminate. Qed.

Lemma rel_assert c b : rel eq (assert_ c b) (assert_ c b).
Proof. unfold assert_. destruct b; [now apply rel_ret|]. destruct (ndebug c); [now apply rel_ret|]. intros ? ? ? ? ? ? ? ? E. discriminate. Qed.

Lemma rel_branch b : rel (fun x y => x = b /\ y = b) (branch b) (branch b).
Proof. intros m1 m2 t x s1 y s2 L E1 E2. injection E1 as <- <-. injection E2 as <- <-. auto. Qed.

Lemma rel_if {A} (R : A -> A -> Prop) b x y x' y' : rel R x x' -> rel R y y' -> rel R (if_ b x y) (if_ b x' y').
Proof.
  intros H1 H2. unfold if_. eapply rel_bind; [apply rel_branch|]. intros c c' [-> ->]. now destruct b.
Qed.

Lemma rel_load_ p : rel any (load_ p) (load_ p).
Proof.
  intros m1 m2 t a s1 b s2 L E1 E2. unfold load_ in *. cbn [smem] in *.
  destruct (rd1 m1 p); try discriminate. destruct (rd1 m2 p); try discriminate.
  injection E1 as <- <-. injection E2 as <- <-. cbn. unfold any. auto.
Qed.

Lemma rel_store_ p v1 v2 : rel eq (store_ p v1) (store_ p v2).
Proof.
  intros m1 m2 t a s1 b s2 L E1 E2. unfold store_ in *. cbn [smem strc] in *.
  destruct (wr1 m1 p v1) eqn:W1; try discriminate. destruct (wr1 m2 p v2) eqn:W2; try discriminate.
  injection E1 as <- <-. injection E2 as <- <-. cbn. split; auto. split; auto. eapply layout_wr1; eauto.
Qed.

Lemma rel_load p : rel any (load p) (load p).
Proof. eapply rel_bind; [apply rel_emit|]. intros ? ? _. apply rel_load_. Qed.
Lemma rel_store p v1 v2 : rel eq (store p v1) (store p v2).
Proof. eapply rel_bind; [apply rel_emit|]. intros ? ? _. apply rel_store_. Qed.

Definition samelen {A} (a b : list A) : Prop := length a = length b.

Lemma rel_loads_ n p : rel samelen (loads_ n p) (loads_ n p).
Proof.
  revert p; induction n as [|n IH]; intros p; cbn [loads_]; [now apply rel_ret|].
  eapply rel_bind; [apply rel_load_|]. intros a b _. eapply rel_bind; [apply IH|]. intros x y H. apply rel_ret.
  unfold samelen in *. cbn. auto.
Qed.

Lemma rel_stores_ vs vs' p : length vs = length vs' -> rel eq (stores_ vs p) (stores_ vs' p).
Proof.
  revert vs' p; induction vs as [|v vs IH]; intros [|v' vs'] p H; try discriminate; cbn [stores_]; [now apply rel_ret|].
  eapply rel_bind; [apply rel_store_|]. intros ? ? _. apply IH. now injection H.
Qed.

Lemma rel_loadn c n p : rel samelen (loadn c n p) (loadn c n p).
Proof.
  unfold loadn. destruct (aligned c p n); [|apply rel_fail].
  eapply rel_bind; [apply rel_emit|]. intros ? ? _. apply rel_loads_.
Qed.
Lemma rel_storen c vs vs' p : length vs = length vs' -> rel eq (storen c vs p) (storen c vs' p).
Proof.
  intros H. unfold storen. rewrite H. destruct (aligned c p (length vs')); [|apply rel_fail].
  eapply rel_bind; [apply rel_emit|]. intros ? ? _. now apply rel_stores_.
Qed.
Lemma rel_memcpy d s n : rel eq (memcpy d s n) (memcpy d s n).
Proof.
  unfold memcpy. destruct (overlap d s n); [apply rel_fail|].
  eapply rel_bind; [apply rel_emit|]. intros ? ? _. eapply rel_bind; [apply rel_emit|]. intros ? ? _.
  eapply rel_bind; [apply rel_loads_|]. intros x y H. now apply rel_stores_.
Qed.
Lemma rel_memset d v n : rel eq (memset d v n) (memset d v n).
Proof. eapply rel_bind; [apply rel_emit|]. intros ? ? _. now apply rel_stores_. Qed.

Lemma rel_with_block {A} (R : A -> A -> Prop) n f g : (forall p, rel R (f p) (g p)) -> rel R (with_block n f) (with_block n g).
Proof.
  intros H m1 m2 t a s1 b s2 L E1 E2. unfold with_block in *. cbn [smem strc] in *.
  rewrite <- (layout_length _ _ L) in E2.
  destruct (f (P (length m1) 0) (St (m1 ++ [uninit n]) t)) as [x [mx tx]| | |] eqn:Ef; try discriminate.
  destruct (g (P (length m1) 0) (St (m2 ++ [uninit n]) t)) as [y [my ty]| | |] eqn:Eg; try discriminate.
  injection E1 as <- <-. injection E2 as <- <-.
  destruct (H _ _ _ _ _ _ _ _ (layout_app _ _ _ _ L eq_refl) Ef Eg) as (T & L' & HR). cbn [smem strc] in *.
  split; auto. split; auto. now apply layout_removelast.
Qed.

Lemma rel_for_nat {A} (R : A -> A -> Prop) n i (f g : N -> A -> M A) a b :
  (forall i a b, R a b -> rel R (f i a) (g i b)) -> R a b -> rel R (for_nat n i f a) (for_nat n i g b).
Proof.
  intros H; revert i a b; induction n as [|n IH]; intros i a b HR; cbn [for_nat].
  - eapply rel_bind; [apply rel_branch|]. intros. now apply rel_ret.
  - eapply rel_bind; [apply rel_branch|]. intros. eapply rel_bind; [now apply H|]. auto.
Qed.
Lemma rel_for {A} (R : A -> A -> Prop) x y (f g : N -> A -> M A) a b :
  (forall i a b, R a b -> rel R (f i a) (g i b)) -> R a b -> rel R (for_ x y f a) (for_ x y g b).
Proof. apply rel_for_nat. Qed.

(* ---- permutation calls ---- *)

(* Whenever the run ends normally, the permutation calls it added to the trace are ps, and the result satisfies Q. *)
Definition calls {A} (f : M A) (Q : A -> list N -> Prop) : Prop :=
  forall s a s', f s = Ok a s' -> exists ps, perms (strc s') = perms (strc s) ++ ps /\ Q a ps.

Lemma calls_ret {A} (a : A) (Q : A -> list N -> Prop) : Q a [] -> calls (ret a) Q.
Proof. intros H s b s' E. injection E as <- <-. exists []. rewrite app_nil_r. auto. Qed.

Lemma calls_bind {A B} (f : M A) (g : A -> M B) P Q :
  calls f P -> (forall a ps, P a ps -> calls (g a) (fun b qs => Q b (ps ++ qs))) -> calls (bind f g) Q.
Proof.
  intros H1 H2 s b s' E. unfold bind in E. destruct (f s) as [a s1| | |] eqn:Ef; try discriminate.
  destruct (H1 _ _ _ Ef) as (ps & E1 & HP). destruct (H2 a ps HP _ _ _ E) as (qs & E2 & HQ).
  exists (ps ++ qs). rewrite E2, E1, app_assoc. auto.
Qed.

Lemma calls_weaken {A} (f : M A) (P Q : A -> list N -> Prop) : calls f P -> (forall a ps, P a ps -> Q a ps) -> calls f Q.
Proof. intros H HQ s a s' E. destruct (H _ _ _ E) as (ps & ? & ?). eauto. Qed.

Lemma perms_cons e t : perms (e :: t) = perms t ++ match e with EPerm r => [r] | _ => [] end.
Proof. unfold perms. cbn [map concat]. rewrite rev_app_distr. now destruct e. Qed.

Lemma calls_emit e : calls (emit e) (fun _ ps => ps = match e with EPerm r => [r] | _ => [] end).
Proof. intros s a s' E. injection E as <- <-. cbn [strc]. rewrite perms_cons. eauto. Qed.

(* No calls at all. *)
Definition silent {A} (f : M A) : Prop := calls f (fun _ ps => ps = []).
Lemma silent_bind {A B} (f : M A) (g : A -> M B) : silent f -> (forall a, silent (g a)) -> silent (bind f g).
Proof.
  intros H1 H2. eapply calls_bind; [apply H1|]. intros a ps ->. apply H2.
Qed.
Lemma silent_ret {A} (a : A) : silent (ret a).
Proof. now apply calls_ret. Qed.
Lemma silent_branch b : calls (branch b) (fun x ps => x = b /\ ps = []).
Proof. eapply calls_bind; [apply calls_emit|]. intros _ ps ->. now apply calls_ret. Qed.
Lemma silent_load_ p : silent (load_ p).
Proof.
  intros s a s' E. unfold load_ in E. destruct (rd1 (smem s) p); [|discriminate]. injection E as <- <-.
  exists []. now rewrite app_nil_r.
Qed.
Lemma silent_store_ p v : silent (store_ p v).
Proof.
  intros s a s' E. unfold store_ in E. destruct (wr1 (smem s) p v); [|discriminate]. injection E as <- <-.
  exists []. now rewrite app_nil_r.
Qed.
Lemma silent_rd p n : silent (emit (ERd p n)). Proof. apply calls_emit. Qed.
Lemma silent_wr p n : silent (emit (EWr p n)). Proof. apply calls_emit. Qed.
Lemma silent_load p : silent (load p).
Proof. apply silent_bind; [apply silent_rd|intros _; apply silent_load_]. Qed.
Lemma silent_store p v : silent (store p v).
Proof. apply silent_bind; [apply silent_wr|intros _; apply silent_store_]. Qed.
Lemma silent_loads_ n p : silent (loads_ n p).
Proof.
  revert p; induction n as [|n IH]; intros p; cbn [loads_]; [apply silent_ret|].
  apply silent_bind; [apply silent_load_|]. intros v. apply silent_bind; [apply IH|]. intros; apply silent_ret.
Qed.
Lemma silent_stores_ vs p : silent (stores_ vs p).
Proof.
  revert p; induction vs as [|v vs IH]; intros p; cbn [stores_]; [apply silent_ret|].
  apply silent_bind; [apply silent_store_|]. intros _. apply IH.
Qed.
Lemma silent_fail {A} : silent (@fail_ub A).
Proof. intros s a s' E. discriminate. Qed.
Lemma silent_loadn c n p : silent (loadn c n p).
Proof.
  unfold loadn. destruct (aligned c p n); [|apply silent_fail].
  apply silent_bind; [apply silent_rd|intros _; apply silent_loads_].
Qed.
Lemma silent_storen c vs p : silent (storen c vs p).
Proof.
  unfold storen. destruct (aligned c p (length vs)); [|apply silent_fail].
  apply silent_bind; [apply silent_wr|intros _; apply silent_stores_].
Qed.
Lemma silent_memcpy d s n : silent (memcpy d s n).
Proof.
  unfold memcpy. destruct (overlap d s n); [apply silent_fail|].
  apply silent_bind; [apply silent_rd|intros _]. apply silent_bind; [apply silent_wr|intros _].
  apply silent_bind; [apply silent_loads_|intros vs]. apply silent_stores_.
Qed.
Lemma silent_memset d v n : silent (memset d v n).
Proof. apply silent_bind; [apply silent_wr|intros _; apply silent_stores_]. Qed.
Lemma silent_assert c b : silent (assert_ c b).
Proof. unfold assert_. destruct b; [apply silent_ret|]. destruct (ndebug c); [apply silent_ret|]. intros s a s' E. discriminate. Qed.

Lemma calls_with_block {A} n (f : ptr -> M A) Q : (forall p, calls (f p) Q) -> calls (with_block n f) Q.
Proof.
  intros H s a s' E. unfold with_block in E.
  destruct (f _ _) as [x sx| | |] eqn:Ef; try discriminate. injection E as <- <-.
  destruct (H _ _ _ _ Ef) as (ps & E1 & HQ). cbn [strc] in *. eauto.
Qed.

Lemma calls_if {A} b (x y : M A) Q : (b = true -> calls x Q) -> (b = false -> calls y Q) -> calls (if_ b x y) Q.
Proof.
  intros H1 H2. eapply calls_bind; [apply silent_branch|]. intros c ps [-> ->]. cbn [app]. destruct b; auto.
Qed.

(* Loops: the carried scalars after k iterations are I k, the calls made so far ps k. *)
Lemma calls_for_nat {A} (I : nat -> A) (ps : nat -> list N) n body : forall i j,
  ps j = [] \/ True ->
  (forall k, (j <= k < j + n)%nat -> calls (body (i + N.of_nat (k - j)) (I k)) (fun a qs => a = I (S k) /\ ps k ++ qs = ps (S k))) ->
  calls (for_nat n i body (I j)) (fun a qs => a = I (j + n)%nat /\ ps j ++ qs = ps (j + n)%nat).
Proof.
  induction n as [|n IH]; intros i j _ H; cbn [for_nat].
  - eapply calls_bind; [apply silent_branch|]. intros c q [-> ->]. apply calls_ret. now rewrite Nat.add_0_r, app_nil_r.
  - eapply calls_bind; [apply silent_branch|]. intros c q [-> ->]. cbn [app].
    eapply calls_bind.
    { specialize (H j ltac:(lia)). replace (i + N.of_nat (j - j)) with i in H by lia. apply H. }
    intros a qs [-> E]. eapply calls_weaken.
    { apply (IH (i + 1) (S j)); auto. intros k Hk. specialize (H k ltac:(lia)).
      now replace (i + 1 + N.of_nat (k - S j)) with (i + N.of_nat (k - j)) by lia. }
    cbn beta. intros b rs [-> E2]. rewrite <- E, <- app_assoc in E2. now replace (j + S n)%nat with (S j + n)%nat by lia.
Qed.

Lemma calls_for {A} (I : nat -> A) (ps : nat -> list N) n body a0 : a0 = I 0%nat -> ps 0%nat = [] ->
  (forall k, (k < n)%nat -> calls (body (N.of_nat k) (I k)) (fun a qs => a = I (S k) /\ ps k ++ qs = ps (S k))) ->
  calls (for_ 0 (N.of_nat n) body a0) (fun a qs => a = I n /\ qs = ps n).
Proof.
  intros -> H0 H. unfold for_. replace (N.to_nat (N.of_nat n - 0)) with n by lia.
  eapply calls_weaken.
  { apply (calls_for_nat I ps n body 0 0); auto. intros k Hk. rewrite Nat.sub_0_r. apply H. lia. }
  cbn beta. rewrite H0. cbn [app]. intros a q [-> E]. auto.
Qed.

Lemma silent_for {A} x y (body : N -> A -> M A) a : (forall i a, silent (body i a)) -> silent (for_ x y body a).
Proof.
  intros H. unfold for_. generalize (N.to_nat (y - x)). intros n. revert x a; induction n as [|n IH]; intros x a; cbn [for_nat].
  - eapply calls_bind; [apply silent_branch|]. intros c q [-> ->]. apply silent_ret.
  - eapply calls_bind; [apply silent_branch|]. intros c q [-> ->]. apply silent_bind; auto.
Qed.
