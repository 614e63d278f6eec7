(* The functions of the ARM assembler files other than the permutation: KeccakP400_Initialize, AddByte, AddBytes, OverwriteBytes,
   OverwriteWithZeroes, ExtractBytes, ExtractAndAddBytes. Proofs only. *)
From Verif Require Import Base Prog SpecPerm Words ArmIsa ArmAsm VocabAsm ArmSim ArmLoop.
Open Scope N_scope.

Lemma bytes_at_S m a n : bytes_at m a (S n) = bytes_at m a n ++ [me m (a + N.of_nat n)].
Proof. unfold bytes_at. now rewrite seq_S, map_app. Qed.
Lemma bytes_at_length m a n : length (bytes_at m a n) = n.
Proof. unfold bytes_at. now rewrite map_length, seq_length. Qed.
Lemma bytes_at_ext m m' a n : (forall i, (i < n)%nat -> me m' (a + N.of_nat i) = me m (a + N.of_nat i)) -> bytes_at m' a n = bytes_at m a n.
Proof. intros H. unfold bytes_at. apply map_ext_in. intros i Hi. apply in_seq in Hi. apply H. lia. Qed.
Lemma bytes_at_is m a n l : length l = n -> (forall i, (i < n)%nat -> me m (a + N.of_nat i) = nth i l 0) -> bytes_at m a n = l.
Proof.
  intros L H. unfold bytes_at. apply (nth_ext _ _ 0 0); [now rewrite map_length, seq_length|]. intros i Hi.
  rewrite map_length, seq_length in Hi. rewrite (nth_indep _ 0 ((fun i => me m (a + N.of_nat i)) 0%nat)) by now rewrite map_length, seq_length.
  rewrite (map_nth (fun i => me m (a + N.of_nat i))), seq_nth by auto. auto.
Qed.
Lemma nth_bytes_at m a n i : (i < n)%nat -> nth i (bytes_at m a n) 0 = me m (a + N.of_nat i).
Proof.
  intros Hi. unfold bytes_at. rewrite (nth_indep _ 0 ((fun i => me m (a + N.of_nat i)) 0%nat)) by now rewrite map_length, seq_length.
  now rewrite (map_nth (fun i => me m (a + N.of_nat i))), seq_nth.
Qed.

Definition put1 (g : N -> N) (a v : N) : N -> N := fun x => if x =? a then v mod 256 else g x.
Lemma putn1 g a v x : a < 2 ^ 32 -> putn g a 1 v x = put1 g a v x.
Proof. intros H. rewrite putn_1 by exact H. reflexivity. Qed.

(* ---------- bytes and words ---------- *)

Lemma le_word_1 x : le_word [x] = x.
Proof. rewrite le_word_cons. change (le_word []) with 0. lia. Qed.
Lemma ldb rd a m : a < 2 ^ 32 -> rd a = true -> load rd 1 1 a m = Some (me m a, see m (Ld a 1)).
Proof.
  intros H1 H2. rewrite load_ok; [|apply N.mod_1_r|].
  - rewrite addrs_1 by exact H1. cbn [map]. now rewrite le_word_1.
  - rewrite addrs_1 by exact H1. intros x [<- | []]. exact H2.
Qed.
Lemma stb wr a v m : a < 2 ^ 32 -> wr a = true -> store wr 1 1 a v m = Some (see (setm m (putn (me m) a 1 v)) (St a 1)).
Proof.
  intros H1 H2. apply store_ok; [apply N.mod_1_r|]. rewrite addrs_1 by exact H1. intros x [<- | []]. exact H2.
Qed.

Definition wd (g : N -> N) (a : N) : N := le_word (map g (addrs a 4)).
Lemma wd_lt g a : (forall x, g x < 256) -> wd g a < 2 ^ 32.
Proof.
  intros H. unfold wd, addrs. cbn [seq map]. rewrite le_word_4. pose proof (H (w32 (a + N.of_nat 0))). pose proof (H (w32 (a + N.of_nat 1))).
  pose proof (H (w32 (a + N.of_nat 2))). pose proof (H (w32 (a + N.of_nat 3))). change (2 ^ 32) with 4294967296. lia.
Qed.
Lemma wd_put g a v : a + 4 <= 2 ^ 32 -> v < 2 ^ 32 -> wd (putn g a 4 v) a = v.
Proof.
  intros H Hv. unfold wd. rewrite addrs_4 by exact H. cbn [map]. rewrite le_word_4, !putn_4 by exact H.
  repeat match goal with |- context [?a =? ?b] => destruct (N.eqb_spec a b); try (exfalso; lia) end.
  change (2 ^ 32) with 4294967296 in Hv. clear - Hv. lia.
Qed.
Lemma wd_ext g g' a : a + 4 <= 2 ^ 32 -> (forall x, a <= x < a + 4 -> g' x = g x) -> wd g' a = wd g a.
Proof. intros H E. unfold wd. rewrite addrs_4 by exact H. cbn [map]. rewrite !E by lia. reflexivity. Qed.

Fixpoint st_ev (n : nat) (a : N) : list event := match n with O => [] | S n => st_ev n (a + 4) ++ [St a 4] end.
Fixpoint ld_ev (n : nat) (a : N) : list event := match n with O => [] | S n => ld_ev n (a + 4) ++ [Ld a 4] end.

Lemma stms_gen wr ds : forall a m, sane m -> a mod 4 = 0 -> a + 4 * N.of_nat (length ds) < 2 ^ 32 -> ok wr a (4 * N.of_nat (length ds)) ->
  exists m', stms wr ds a m = Some m' /\ rf m' = rf m /\ sane m' /\ tc m' = st_ev (length ds) a ++ tc m /\
    (forall x, ~ a <= x < a + 4 * N.of_nat (length ds) -> me m' x = me m x) /\
    (forall j, (j < length ds)%nat -> wd (me m') (a + 4 * N.of_nat j) = rf m (nth j ds 0%nat)).
Proof.
  induction ds as [|d ds IH]; intros a m Hs Ha Hb Hw; cbn [length] in *.
  - exists m. repeat split; auto; try apply Hs. intros j Hj. lia.
  - cbn [stms st_ev]. rewrite store_ok; [|exact Ha|].
    2: { rewrite addrs_4 by lia. intros x Hx. apply Hw. cbn [List.In] in Hx. lia. }
    set (m1 := see (setm m (putn (me m) a 4 (rf m d))) (St a 4)).
    assert (S1 : sane m1).
    { split; [apply Hs|]. intros x. apply putn_byte; [auto|change (N.of_nat 4) with 4; lia|apply Hs]. }
    rewrite w32_id by lia.
    destruct (IH (a + 4) m1 S1) as (m' & E & Er & S' & T & F & V); [clear - Ha; lia|lia| |].
    { intros x Hx. apply Hw. lia. }
    exists m'. split; [exact E|]. split; [exact Er|]. split; [exact S'|]. split; [rewrite T; cbn [m1 see tc]; now rewrite <- app_assoc|]. split.
    + intros x Hx. rewrite F by lia. cbn [m1 see setm me]. apply putn_out; [change (N.of_nat 4) with 4; lia|change (N.of_nat 4) with 4; lia|auto].
    + intros [|j] Hj; cbn [nth].
      * change (N.of_nat 0) with 0. rewrite N.mul_0_r, N.add_0_r. rewrite (wd_ext (me m1)); [|lia|intros x Hx; apply F; lia].
        apply wd_put; [lia|apply Hs].
      * replace (a + 4 * N.of_nat (S j)) with (a + 4 + 4 * N.of_nat j) by lia. rewrite V by lia. reflexivity.
Qed.

Lemma ldms_gen rd ds : NoDup ds -> forall a m, sane m -> a mod 4 = 0 -> a + 4 * N.of_nat (length ds) < 2 ^ 32 -> ok rd a (4 * N.of_nat (length ds)) ->
  exists m', ldms rd ds a m = Some m' /\ me m' = me m /\ sane m' /\ tc m' = ld_ev (length ds) a ++ tc m /\
    (forall r, ~ List.In r ds -> rf m' r = rf m r) /\
    (forall j, (j < length ds)%nat -> rf m' (nth j ds 0%nat) = wd (me m) (a + 4 * N.of_nat j)).
Proof.
  induction 1 as [|d ds Hd Hn IH]; intros a m Hs Ha Hb Hw; cbn [length] in *.
  - exists m. repeat split; auto; try apply Hs. intros j Hj. lia.
  - cbn [ldms ld_ev]. rewrite load_ok; [|exact Ha|].
    2: { rewrite addrs_4 by lia. intros x Hx. apply Hw. cbn [List.In] in Hx. lia. }
    fold (wd (me m) a). set (m1 := setr (see m (Ld a 4)) d (wd (me m) a)).
    assert (S1 : sane m1).
    { split; [|apply Hs]. intros r. cbn [m1 setr see rf]. unfold set. destruct (r =? d)%nat; [apply wd_lt|]; apply Hs. }
    rewrite w32_id by lia.
    destruct (IH (a + 4) m1 S1) as (m' & E & Em & S' & T & F & V); [clear - Ha; lia|lia| |].
    { intros x Hx. apply Hw. lia. }
    exists m'. split; [exact E|]. split; [exact Em|]. split; [exact S'|]. split; [rewrite T; cbn [m1 setr see tc]; now rewrite <- app_assoc|]. split.
    + intros r Hr. rewrite F by (intros H1; apply Hr; right; exact H1). cbn [m1 setr see rf]. unfold set.
      destruct (Nat.eqb_spec r d) as [->|]; [elim Hr; left|]; reflexivity.
    + intros [|j] Hj; cbn [nth].
      * change (N.of_nat 0) with 0. rewrite N.mul_0_r, N.add_0_r. rewrite F by exact Hd. cbn [m1 setr see rf]. unfold set. now rewrite Nat.eqb_refl.
      * replace (a + 4 * N.of_nat (S j)) with (a + 4 + 4 * N.of_nat j) by lia. rewrite V by lia. reflexivity.
Qed.

Lemma push_gen una rd wr tab ds sp m : sane m -> rf m 13%nat = sp -> sp mod 4 = 0 -> 4 * N.of_nat (length ds) <= sp ->
  ok wr (sp - 4 * N.of_nat (length ds)) (4 * N.of_nat (length ds)) -> ~ List.In 13%nat ds ->
  let a := sp - 4 * N.of_nat (length ds) in
  exists m', run1 una rd wr tab (IPush ds) m = Some m' /\ rf m' = set (rf m) 13 a /\ sane m' /\ tc m' = st_ev (length ds) a ++ tc m /\
    (forall x, ~ a <= x < sp -> me m' x = me m x) /\ (forall j, (j < length ds)%nat -> wd (me m') (a + 4 * N.of_nat j) = rf m (nth j ds 0%nat)).
Proof.
  intros Hs Esp Hal Hle Hw Hn a. assert (Hb : sp < 2 ^ 32) by (rewrite <- Esp; apply Hs).
  assert (W : w32 (rf m 13%nat + 2 ^ 32 - words ds) = a).
  { rewrite Esp. unfold words, w32. replace (sp + 2 ^ 32 - 4 * N.of_nat (length ds)) with (a + 1 * 2 ^ 32) by (unfold a; lia).
    rewrite N.mod_add by discriminate. apply N.mod_small. unfold a. lia. }
  cbn [run1]. rewrite W.
  destruct (stms_gen wr ds a m Hs) as (m' & E & Er & S' & T & F & V); [unfold a; clear - Hal Hle; lia|unfold a; lia|exact Hw|].
  rewrite E. cbn [optmap]. eexists. split; [reflexivity|]. cbn [setr rf me tc]. split; [now rewrite Er|].
  split. { split; [|apply S']. cbn [setr rf]. intros r. unfold set. destruct (r =? 13)%nat; [unfold a; lia|apply S']. }
  split; [exact T|]. split; [|exact V]. intros x Hx. apply F. unfold a in *. lia.
Qed.
Lemma pop_gen una rd wr tab ds a m : NoDup ds -> sane m -> rf m 13%nat = a -> a mod 4 = 0 -> a + 4 * N.of_nat (length ds) < 2 ^ 32 ->
  ok rd a (4 * N.of_nat (length ds)) ->
  exists m', run1 una rd wr tab (IPop ds) m = Some m' /\ me m' = me m /\ rf m' 13%nat = a + 4 * N.of_nat (length ds) /\ sane m' /\
    tc m' = ld_ev (length ds) a ++ tc m /\ (forall r, ~ List.In r ds -> r <> 13%nat -> rf m' r = rf m r) /\
    (forall j, (j < length ds)%nat -> nth j ds 0%nat <> 13%nat -> rf m' (nth j ds 0%nat) = wd (me m) (a + 4 * N.of_nat j)).
Proof.
  intros Hn Hs Esp Hal Hle Hw. cbn [run1]. rewrite Esp.
  destruct (ldms_gen rd ds Hn a m Hs Hal Hle Hw) as (m' & E & Em & S' & T & F & V). rewrite E. cbn [optmap]. eexists. split; [reflexivity|].
  unfold words. rewrite w32_id by exact Hle. cbn [setr rf me tc]. split; [exact Em|]. split; [reflexivity|].
  split. { split; [|apply S']. cbn [setr rf]. intros r. unfold set. destruct (r =? 13)%nat; [exact Hle|apply S']. }
  split; [exact T|]. split.
  - intros r H1 H2. unfold set. destruct (Nat.eqb_spec r 13); [contradiction|]. now apply F.
  - intros j Hj H13. unfold set. destruct (Nat.eqb_spec (nth j ds 0%nat) 13); [contradiction|]. now apply V.
Qed.
