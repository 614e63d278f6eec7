(* Reasoning about Mem.v: exact evaluation ("runs"), contents of memory, bulk updates. Proofs only. *)
From Verif Require Import Base Mem Vocab.
Open Scope N_scope.
Open Scope cm_scope.

Lemma runs_ret {A} (a : A) m : runs (ret a) m a m.
Proof. intros t. now exists t. Qed.

Lemma runs_bind {A B} (f : M A) (g : A -> M B) m a m1 b m2 :
  runs f m a m1 -> runs (g a) m1 b m2 -> runs (bind f g) m b m2.
Proof.
  intros Hf Hg t. destruct (Hf t) as [t1 E]. destruct (Hg t1) as [t2 E2].
  exists t2. unfold bind. now rewrite E.
Qed.

Lemma runs_eq {A} (f : M A) m a m1 a' m2 : runs f m a m1 -> a = a' -> m1 = m2 -> runs f m a' m2.
Proof. now intros H -> ->. Qed.

Lemma runs_emit e m : runs (emit e) m tt m.
Proof. intros t. eexists. reflexivity. Qed.

Lemma runs_branch b m : runs (branch b) m b m.
Proof. eapply runs_bind; [apply runs_emit | apply runs_ret]. Qed.

Lemma runs_if {A} (b : bool) (x y : M A) m a m' : runs (if b then x else y) m a m' -> runs (if_ b x y) m a m'.
Proof. intros H. eapply runs_bind; [apply runs_branch | exact H]. Qed.

Lemma runs_assert c b m : b = true -> runs (assert_ c b) m tt m.
Proof. intros ->. apply runs_ret. Qed.

Lemma runs_load_ p m v : rd1 m p = Some v -> runs (load_ p) m v m.
Proof. intros H t. exists t. unfold load_. simpl. now rewrite H. Qed.

Lemma runs_load p m v : rd1 m p = Some v -> runs (load p) m v m.
Proof. intros H. eapply runs_bind; [apply runs_emit | now apply runs_load_]. Qed.

Lemma runs_store_ p v m m' : wr1 m p v = Some m' -> runs (store_ p v) m tt m'.
Proof. intros H t. exists t. unfold store_. simpl. now rewrite H. Qed.

Lemma runs_store p v m m' : wr1 m p v = Some m' -> runs (store p v) m tt m'.
Proof. intros H. eapply runs_bind; [apply runs_emit | now apply runs_store_]. Qed.

Lemma runs_with_block {A} n (f : ptr -> M A) m a m' b :
  runs (f (P (length m) 0)) (m ++ [uninit n]) a (m' ++ [b]) -> runs (with_block n f) m a m'.
Proof.
  intros H t. destruct (H t) as [t' E]. exists t'. unfold with_block. cbn [smem strc]. rewrite E.
  cbn [smem strc]. now rewrite removelast_last.
Qed.

Lemma runs_for_nat {A} (I : nat -> A) (mm : nat -> mem) n body i :
  (forall k, (k < n)%nat -> runs (body (i + N.of_nat k) (I k)) (mm k) (I (S k)) (mm (S k))) ->
  runs (for_nat n i body (I O)) (mm O) (I n) (mm n).
Proof.
  revert I mm i. induction n as [|n IH]; intros I mm i H; cbn [for_nat].
  - eapply runs_bind; [apply runs_branch | apply runs_ret].
  - eapply runs_bind; [apply runs_branch|].
    eapply runs_bind.
    + rewrite <- (N.add_0_r i). apply (H O). lia.
    + apply (IH (fun k => I (S k)) (fun k => mm (S k))).
      intros k Hk. replace (i + 1 + N.of_nat k) with (i + N.of_nat (S k)) by lia. apply H. lia.
Qed.

Lemma runs_for {A} (I : nat -> A) (mm : nat -> mem) n body a0 m0 a1 m1 :
  (forall k, (k < N.to_nat n)%nat -> runs (body (N.of_nat k) (I k)) (mm k) (I (S k)) (mm (S k))) ->
  I O = a0 -> mm O = m0 -> I (N.to_nat n) = a1 -> mm (N.to_nat n) = m1 ->
  runs (for_ 0 n body a0) m0 a1 m1.
Proof.
  intros H <- <- <- <-. unfold for_. rewrite N.sub_0_r. apply runs_for_nat. auto.
Qed.

Lemma runs_while {A} (I : nat -> A) (mm : nat -> mem) (n fuel : nat) cond body a0 m0 a1 m1 :
  (n < fuel)%nat ->
  (forall k, (k < n)%nat -> cond (I k) = true /\ runs (body (I k)) (mm k) (I (S k)) (mm (S k))) ->
  cond (I n) = false ->
  I O = a0 -> mm O = m0 -> I n = a1 -> mm n = m1 ->
  runs (while_ fuel cond body a0) m0 a1 m1.
Proof.
  intros Hf H Hc <- <- <- <-. revert I mm fuel Hf H Hc. induction n as [|n IH]; intros I mm fuel Hf H Hc.
  - destruct fuel as [|f]; [lia|]. cbn [while_]. eapply runs_bind; [apply runs_branch|]. rewrite Hc. apply runs_ret.
  - destruct fuel as [|f]; [lia|]. cbn [while_]. eapply runs_bind; [apply runs_branch|].
    destruct (H O) as [Hc0 H0]; [lia|]. rewrite Hc0.
    eapply runs_bind; [exact H0|]. apply (IH (fun k => I (S k)) (fun k => mm (S k))); auto; try lia.
    intros k Hk. apply H. lia.
Qed.

(* ---------- contents ---------- *)

Lemma rd1_cell m p : rd1 m p = match cellp m p with Some (Some v) => Some v | _ => None end.
Proof.
  unfold rd1, inside, cellp. destruct (N.ltb_spec (po p) (N.of_nat (length (blk m (pb p))))) as [H|H].
  - rewrite (nth_error_nth' _ (None : cell)) by lia. now destruct (nth _ _ _).
  - rewrite (proj2 (nth_error_None _ _)) by lia. reflexivity.
Qed.

Lemma inside_cell m p : inside m p = true <-> cellp m p <> None.
Proof. unfold inside, cellp. rewrite nth_error_Some. rewrite N.ltb_lt. lia. Qed.

Lemma mem_ext (m m' : mem) : length m = length m' ->
  (forall b i, nth_error (blk m b) i = nth_error (blk m' b) i) -> m = m'.
Proof.
  intros Hl H. apply (nth_ext_le _ _ ([] : block) Hl). intros b _. apply list_eq_nth_error. exact (H b).
Qed.

Lemma splice_length {A} (l : list A) o xs : (o + length xs <= length l)%nat -> length (splice l o xs) = length l.
Proof. intros H. unfold splice. rewrite !app_length, firstn_length, skipn_length. lia. Qed.

Lemma nth_error_skipn {A} (l : list A) n i : nth_error (skipn n l) i = nth_error l (n + i).
Proof.
  revert l; induction n as [|n IH]; intros l; simpl; auto. destruct l; simpl; auto. now destruct i.
Qed.

Lemma nth_error_firstn {A} (l : list A) n i : nth_error (firstn n l) i = if (i <? n)%nat then nth_error l i else None.
Proof.
  revert l i; induction n as [|n IH]; intros l i; simpl.
  - now destruct i.
  - destruct l as [|x l]; simpl; [destruct i; destruct (_ <? _)%nat; auto|].
    destruct i as [|i]; simpl; auto. rewrite IH. reflexivity.
Qed.

Lemma nth_error_splice {A} (l : list A) o xs i : (o + length xs <= length l)%nat ->
  nth_error (splice l o xs) i =
  if (o <=? i)%nat && (i <? o + length xs)%nat then nth_error xs (i - o) else nth_error l i.
Proof.
  intros H. unfold splice.
  destruct (Nat.leb_spec o i) as [H1|H1]; cbn [andb].
  - rewrite nth_error_app2 by (rewrite firstn_length; lia). rewrite firstn_length.
    replace (Nat.min o (length l)) with o by lia.
    destruct (Nat.ltb_spec i (o + length xs)) as [H2|H2].
    + rewrite nth_error_app1 by lia. reflexivity.
    + rewrite nth_error_app2 by lia. rewrite nth_error_skipn. f_equal. lia.
  - rewrite nth_error_app1 by (rewrite firstn_length; lia). rewrite nth_error_firstn.
    destruct (Nat.ltb_spec i o); auto; lia.
Qed.

Lemma splice_map {A B} (f : A -> B) l o xs : splice (map f l) o (map f xs) = map f (splice l o xs).
Proof. unfold splice. now rewrite !map_app, firstn_map, skipn_map, map_length. Qed.

Lemma splice_nil {A} (l : list A) o : splice l o [] = l.
Proof. unfold splice. simpl. rewrite Nat.add_0_r. apply firstn_skipn. Qed.

Lemma splice_all {A} (l xs : list A) : length xs = length l -> splice l 0 xs = xs.
Proof. intros H. unfold splice. simpl. rewrite H, skipn_all. apply app_nil_r. Qed.

Lemma blk_upd m b x b' : blk (upd_nth m b x) b' = if (b' =? b)%nat then (if (b <? length m)%nat then x else []) else blk m b'.
Proof. unfold blk. apply nth_upd_nth. Qed.

Lemma blk_nonempty m b : blk m b <> [] -> (b < length m)%nat.
Proof. intros H. destruct (Nat.ltb_spec b (length m)); auto. exfalso. apply H. now apply nth_overflow. Qed.

Lemma put_length m b o bs : length (put m b o bs) = length m.
Proof. apply upd_nth_length. Qed.
Lemma putp_length m p bs : length (putp m p bs) = length m.
Proof. apply upd_nth_length. Qed.

Lemma put_nil m b o : put m b o [] = m.
Proof.
  unfold put. simpl. rewrite splice_nil. apply (nth_ext_le _ _ ([] : block)).
  - apply upd_nth_length.
  - intros i Hi. rewrite upd_nth_length in Hi. rewrite nth_upd_nth.
    destruct (Nat.eqb_spec i b) as [->|]; auto. destruct (b <? length m)%nat eqn:E; [reflexivity|].
    apply Nat.ltb_ge in E. lia.
Qed.
Lemma putp_nil m p : putp m p [] = m.
Proof. apply put_nil. Qed.

Lemma cell_put m b o bs b' i : (o + length bs <= length (blk m b))%nat ->
  nth_error (blk (put m b o bs) b') i =
  if (b' =? b)%nat && (o <=? i)%nat && (i <? o + length bs)%nat then Some (Some (nth (i - o) bs 0))
  else nth_error (blk m b') i.
Proof.
  intros H. unfold put. rewrite blk_upd.
  destruct (Nat.eqb_spec b' b) as [->|Hb]; cbn [andb]; auto.
  destruct (Nat.ltb_spec b (length m)) as [Hm|Hm].
  - rewrite nth_error_splice by now rewrite map_length. rewrite map_length.
    destruct (Nat.leb_spec o i), (Nat.ltb_spec i (o + length bs)); cbn [andb]; auto.
    rewrite nth_error_map, (nth_error_nth' _ 0) by lia. reflexivity.
  - assert (E : blk m b = []) by now apply nth_overflow. rewrite E in *. cbn [length] in H.
    destruct (Nat.leb_spec o i), (Nat.ltb_spec i (o + length bs)); cbn [andb]; auto. lia.
Qed.

Lemma room_le m p n : (0 < n)%nat -> room m p n -> (N.to_nat (po p) + n <= length (blk m (pb p)))%nat.
Proof.
  intros Hn H. specialize (H (n - 1)%nat). unfold inside, padd in H. cbn [pb po] in H.
  rewrite N.ltb_lt in H. lia.
Qed.

Lemma room_of_le m p n : (N.to_nat (po p) + n <= length (blk m (pb p)))%nat -> room m p n.
Proof. intros H i Hi. unfold inside, padd. cbn [pb po]. rewrite N.ltb_lt. lia. Qed.

Lemma room_sub m p n k j : room m p n -> (k + j <= n)%nat -> room m (padd p (N.of_nat k)) j.
Proof.
  intros H Hn i Hi. specialize (H (k + i)%nat). unfold padd in *. cbn [pb po] in *.
  rewrite <- N.add_assoc, <- Nat2N.inj_add. apply H. lia.
Qed.

Lemma room_has m p bs : has m p bs -> room m p (length bs).
Proof.
  intros H i Hi. specialize (H i Hi). unfold rd1 in H. destruct (inside m _); auto. discriminate.
Qed.

(* Cells of a bulk update, with pointers. *)
Lemma cellp_putp m p bs q : room m p (length bs) ->
  cellp (putp m p bs) q =
  if within p (length bs) q then Some (Some (nth (N.to_nat (po q - po p)) bs 0)) else cellp m q.
Proof.
  intros H. destruct (Nat.eq_dec (length bs) 0) as [Hz|Hz].
  - destruct bs; [|discriminate]. rewrite putp_nil. unfold within. simpl length.
    destruct (N.leb_spec (po p) (po q)), (N.ltb_spec (po q) (po p + N.of_nat 0)); rewrite ?andb_false_r; auto; lia.
  - unfold cellp, putp. rewrite cell_put by (apply room_le; auto; lia). unfold within.
    destruct (Nat.eqb_spec (pb q) (pb p)); cbn [andb]; auto.
    replace (N.to_nat (po p) <=? N.to_nat (po q))%nat with (po p <=? po q) by lia.
    replace (N.to_nat (po q) <? N.to_nat (po p) + length bs)%nat with (po q <? po p + N.of_nat (length bs)) by lia.
    destruct ((po p <=? po q) && (po q <? po p + N.of_nat (length bs))) eqn:E; auto.
    do 3 f_equal. lia.
Qed.

Lemma rd1_putp m p bs q : room m p (length bs) ->
  rd1 (putp m p bs) q = if within p (length bs) q then Some (nth (N.to_nat (po q - po p)) bs 0) else rd1 m q.
Proof. intros H. rewrite !rd1_cell, cellp_putp by auto. now destruct (within _ _ _). Qed.

Lemma inside_putp m p bs q : room m p (length bs) -> inside (putp m p bs) q = inside m q.
Proof.
  intros H. destruct (Nat.eq_dec (length bs) 0) as [Hz|Hz].
  - destruct bs; [|discriminate]. now rewrite putp_nil.
  - unfold inside, putp, put. rewrite blk_upd. destruct (Nat.eqb_spec (pb q) (pb p)) as [->|]; auto.
    assert (Hl : (N.to_nat (po p) + length bs <= length (blk m (pb p)))%nat) by (apply room_le; auto; lia).
    destruct (Nat.ltb_spec (pb p) (length m)) as [Hm|Hm].
    + rewrite splice_length by now rewrite map_length. reflexivity.
    + unfold blk in Hl. rewrite nth_overflow in Hl by auto. cbn [length] in Hl. lia.
Qed.

Lemma room_putp m p bs q n : room m p (length bs) -> room m q n -> room (putp m p bs) q n.
Proof. intros H Hq i Hi. rewrite inside_putp by auto. now apply Hq. Qed.

Lemma mem_ext_cellp m m' : length m = length m' -> (forall q, cellp m q = cellp m' q) -> m = m'.
Proof.
  intros Hl H. apply mem_ext; auto. intros b i. specialize (H (P b (N.of_nat i))).
  unfold cellp in H. cbn [pb po] in H. now rewrite Nat2N.id in H.
Qed.

Lemma within_false_lt p n q : pb q <> pb p \/ po q < po p \/ po p + N.of_nat n <= po q -> within p n q = false.
Proof.
  unfold within. intros H. destruct (Nat.eqb_spec (pb q) (pb p)); cbn [andb]; auto.
  destruct (N.leb_spec (po p) (po q)); cbn [andb]; auto. destruct (N.ltb_spec (po q) (po p + N.of_nat n)); auto. lia.
Qed.

Lemma within_true p n q : pb q = pb p -> po p <= po q < po p + N.of_nat n -> within p n q = true.
Proof. unfold within. intros -> H. rewrite Nat.eqb_refl. cbn [andb]. lia. Qed.

(* Storing a concatenation in two steps. *)
Lemma putp_app_bytes m p a b : room m p (length (a ++ b)) ->
  putp (putp m p a) (padd p (N.of_nat (length a))) b = putp m p (a ++ b).
Proof.
  intros H. rewrite app_length in H.
  assert (Ha : room m p (length a)) by (intros i Hi; apply H; lia).
  assert (Hb : room m (padd p (N.of_nat (length a))) (length b)) by (apply (room_sub _ _ _ _ _ H); lia).
  apply mem_ext_cellp; [now rewrite !putp_length|]. intros q.
  rewrite !cellp_putp; auto; [| now rewrite app_length | now apply room_putp].
  rewrite app_length. unfold within, padd. cbn [pb po].
  destruct (Nat.eqb_spec (pb q) (pb p)); cbn [andb]; auto.
  destruct (N.leb_spec (po p) (po q)), (N.leb_spec (po p + N.of_nat (length a)) (po q)),
    (N.ltb_spec (po q) (po p + N.of_nat (length a))),
    (N.ltb_spec (po q) (po p + N.of_nat (length a) + N.of_nat (length b))),
    (N.ltb_spec (po q) (po p + N.of_nat (length a + length b))); cbn [andb]; try lia; auto.
  all: first [rewrite app_nth1 by lia; reflexivity | rewrite app_nth2 by lia; do 3 f_equal; lia].
Qed.

Lemma wr1_putp m p v : inside m p = true -> wr1 m p v = Some (putp m p [v]).
Proof.
  intros H. unfold wr1. rewrite H. f_equal. unfold putp, put. f_equal. unfold inside in H. rewrite N.ltb_lt in H.
  apply list_eq_nth_error. intros i. rewrite nth_error_upd_nth, nth_error_splice by (simpl; lia). simpl length.
  destruct (Nat.eqb_spec i (N.to_nat (po p))) as [->|Hi].
  - destruct (Nat.ltb_spec (N.to_nat (po p)) (length (blk m (pb p)))); [|lia].
    rewrite Nat.leb_refl. replace (N.to_nat (po p) <? N.to_nat (po p) + 1)%nat with true by lia.
    cbn [andb]. now rewrite Nat.sub_diag.
  - destruct (Nat.leb_spec (N.to_nat (po p)) i), (Nat.ltb_spec i (N.to_nat (po p) + 1)); cbn [andb]; auto. lia.
Qed.

Lemma padd_padd p a b : padd (padd p a) b = padd p (a + b).
Proof. unfold padd. cbn. f_equal. lia. Qed.
Lemma padd_0 p : padd p 0 = p.
Proof. destruct p. unfold padd. cbn. f_equal. lia. Qed.

Lemma runs_stores_ vs p m : room m p (length vs) -> runs (stores_ vs p) m tt (putp m p vs).
Proof.
  revert p m. induction vs as [|v vs IH]; intros p m H; cbn [stores_].
  - rewrite putp_nil. apply runs_ret.
  - eapply runs_bind.
    + apply runs_store_, wr1_putp. rewrite <- (padd_0 p). apply (H O). simpl; lia.
    + assert (H1 : room m p (length [v])) by (intros i Hi; apply H; simpl in *; lia).
      change (v :: vs) with ([v] ++ vs) in *. rewrite <- putp_app_bytes by auto. apply IH.
      apply room_putp; auto. apply (room_sub m p (length ([v] ++ vs)) 1 (length vs)); auto.
Qed.

Lemma runs_loads_ bs p m : has m p bs -> runs (loads_ (length bs) p) m bs m.
Proof.
  revert p. induction bs as [|b bs IH]; intros p H; cbn [loads_ length].
  - apply runs_ret.
  - eapply runs_bind.
    + apply runs_load_. rewrite <- (padd_0 p). apply (H O). simpl; lia.
    + eapply runs_bind; [|apply runs_ret]. apply IH. intros i Hi. rewrite padd_padd.
      replace (1 + N.of_nat i) with (N.of_nat (S i)) by lia. apply (H (S i)). simpl; lia.
Qed.

Lemma runs_store1 p v m : inside m p = true -> runs (store p v) m tt (putp m p [v]).
Proof. intros H. apply runs_store, wr1_putp. auto. Qed.

Lemma runs_loadn c bs p m : has m p bs -> aligned c p (length bs) = true -> runs (loadn c (length bs) p) m bs m.
Proof.
  intros H Ha. unfold loadn. rewrite Ha. eapply runs_bind; [apply runs_emit|]. now apply runs_loads_.
Qed.

Lemma runs_storen c bs p m : room m p (length bs) -> aligned c p (length bs) = true ->
  runs (storen c bs p) m tt (putp m p bs).
Proof.
  intros H Ha. unfold storen. rewrite Ha. eapply runs_bind; [apply runs_emit|]. now apply runs_stores_.
Qed.

Lemma runs_memcpy dst src bs n m : n = N.of_nat (length bs) -> has m src bs -> room m dst (length bs) ->
  overlap dst src n = false -> runs (memcpy dst src n) m tt (putp m dst bs).
Proof.
  intros -> Hs Hd Ho. unfold memcpy. rewrite Ho. rewrite Nat2N.id.
  eapply runs_bind; [apply runs_emit|]. eapply runs_bind; [apply runs_emit|].
  eapply runs_bind; [now apply runs_loads_|]. now apply runs_stores_.
Qed.

Lemma runs_memset dst v n m : room m dst n ->
  runs (memset dst v (N.of_nat n)) m tt (putp m dst (repeat v n)).
Proof.
  intros H. unfold memset. rewrite Nat2N.id. eapply runs_bind; [apply runs_emit|].
  apply runs_stores_. now rewrite repeat_length.
Qed.

Lemma overlap_diff p q n : pb p <> pb q -> overlap p q n = false.
Proof. intros H. unfold overlap. destruct (Nat.eqb_spec (pb p) (pb q)); auto. congruence. Qed.

(* ---------- frames: user memory followed by local blocks ---------- *)

Lemma blk_app1 m l b : (b < length m)%nat -> blk (m ++ l) b = blk m b.
Proof. intros. unfold blk. now apply app_nth1. Qed.
Lemma blk_app2 m l k : blk (m ++ l) (length m + k) = blk l k.
Proof. unfold blk. rewrite app_nth2 by lia. f_equal. lia. Qed.
Lemma upd_app2 (m l : mem) k x : upd_nth (m ++ l) (length m + k) x = m ++ upd_nth l k x.
Proof. apply upd_nth_app_r. Qed.

Lemma inside_pb m p : inside m p = true -> (pb p < length m)%nat.
Proof.
  unfold inside. rewrite N.ltb_lt. intros H. apply blk_nonempty. intros E. rewrite E in H. simpl in H. lia.
Qed.

Lemma cellp_app m l p : (pb p < length m)%nat -> cellp (m ++ l) p = cellp m p.
Proof. intros H. unfold cellp. now rewrite blk_app1. Qed.
Lemma rd1_app m l p v : rd1 m p = Some v -> rd1 (m ++ l) p = Some v.
Proof.
  intros H. rewrite rd1_cell in *. rewrite cellp_app; auto. apply inside_pb. apply inside_cell.
  destruct (cellp m p); congruence.
Qed.
Lemma inside_app m l p : inside m p = true -> inside (m ++ l) p = true.
Proof. intros H. apply inside_cell. rewrite cellp_app by now apply inside_pb. now apply inside_cell. Qed.
Lemma has_app m l p bs : has m p bs -> has (m ++ l) p bs.
Proof. intros H i Hi. apply rd1_app. now apply H. Qed.
Lemma room_app m l p n : room m p n -> room (m ++ l) p n.
Proof. intros H i Hi. apply inside_app. now apply H. Qed.

Lemma putp_app m l p bs : room m p (length bs) -> putp (m ++ l) p bs = putp m p bs ++ l.
Proof.
  intros H. destruct bs as [|b bs].
  - now rewrite !putp_nil.
  - assert (Hb : (pb p < length m)%nat).
    { apply (inside_pb m (padd p 0)). apply (H O). simpl; lia. }
    unfold putp, put. rewrite blk_app1 by auto. now apply upd_nth_app_l.
Qed.

Lemma blk_putp_other m p bs b : b <> pb p -> blk (putp m p bs) b = blk m b.
Proof. intros H. unfold putp, put. rewrite blk_upd. destruct (Nat.eqb_spec b (pb p)); auto. congruence. Qed.

(* Reading back a whole block of bytes. *)
Lemma rd1_blk m b st o : blk m b = map Some st -> o < N.of_nat (length st) ->
  rd1 m (P b o) = Some (nth (N.to_nat o) st 0).
Proof.
  intros H Ho. rewrite rd1_cell. unfold cellp. cbn [pb po]. rewrite H, nth_error_map.
  rewrite (nth_error_nth' _ 0) by lia. reflexivity.
Qed.

Lemma has_blk m b st o n : blk m b = map Some st -> (o + n <= length st)%nat ->
  has m (P b (N.of_nat o)) (firstn n (skipn o st)).
Proof.
  intros H Hn i Hi. rewrite firstn_length, skipn_length in Hi. unfold padd. cbn [pb po].
  rewrite (rd1_blk _ _ st) by (auto; lia). f_equal.
  replace (N.to_nat (N.of_nat o + N.of_nat i)) with (o + i)%nat by lia.
  rewrite nth_firstn_lt, nth_skipn_add by lia. reflexivity.
Qed.

Lemma has_blk0 m b st : blk m b = map Some st -> has m (P b 0) st.
Proof.
  intros H. change 0 with (N.of_nat 0). rewrite <- (firstn_all st). change st with (skipn 0 st) at 2.
  apply has_blk; auto.
Qed.

Lemma has_other m p bs b x : has m p bs -> pb p <> b -> has (upd_nth m b x) p bs.
Proof.
  intros H Hb i Hi. specialize (H i Hi). rewrite rd1_cell in *. unfold cellp in *. unfold padd in *. cbn [pb po] in *.
  rewrite blk_upd. destruct (Nat.eqb_spec (pb p) b); auto. congruence.
Qed.

Lemma has_firstn m p bs n : has m p bs -> has m p (firstn n bs).
Proof.
  intros H i Hi. rewrite firstn_length in Hi. rewrite H by lia. f_equal.
  rewrite <- (firstn_skipn n bs) at 1. apply app_nth1. rewrite firstn_length. lia.
Qed.

Lemma has_skipn m p bs n : has m p bs -> has m (padd p (N.of_nat n)) (skipn n bs).
Proof.
  intros H i Hi. rewrite skipn_length in Hi. rewrite padd_padd.
  replace (N.of_nat n + N.of_nat i) with (N.of_nat (n + i)) by lia. rewrite H by lia. f_equal.
  rewrite <- (firstn_skipn n bs) at 1. rewrite app_nth2; rewrite firstn_length; [f_equal; lia | lia].
Qed.

Lemma within_inv p n q : within p n q = true -> exists j, (j < n)%nat /\ padd p (N.of_nat j) = q.
Proof.
  unfold within. rewrite !andb_true_iff, Nat.eqb_eq, N.leb_le, N.ltb_lt. intros [[E1 H1] H2].
  exists (N.to_nat (po q - po p)). split; [lia|]. destruct p as [b1 o1], q as [b2 o2]; unfold padd; cbn [pb po] in *. subst. f_equal. lia.
Qed.

Lemma within_padd p n i : (i < n)%nat -> within p n (padd p (N.of_nat i)) = true.
Proof. intros H. apply within_true; unfold padd; cbn [pb po]; auto. lia. Qed.

Lemma has_putp_disj m p bs q cs : room m p (length bs) -> has m q cs -> disj p (length bs) q (length cs) ->
  has (putp m p bs) q cs.
Proof.
  intros Hr Hq Hd i Hi. rewrite rd1_putp by auto. destruct (within p (length bs) (padd q (N.of_nat i))) eqn:E.
  - apply within_inv in E. destruct E as (j & Hj & E). now destruct (Hd j i Hj Hi).
  - now apply Hq.
Qed.

Lemma has_putp_same m p bs : room m p (length bs) -> has (putp m p bs) p bs.
Proof.
  intros Hr i Hi. rewrite rd1_putp by auto. rewrite within_true; unfold padd; cbn [pb po]; auto; [|lia].
  do 2 f_equal. lia.
Qed.
