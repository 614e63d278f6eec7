(* Pure facts relating byte-serial sponge processing to the blockwise specification. Proofs only. *)
From Verif Require Import Base Prog SpecPerm Spec Words RefLib.
From Verif Require Import Mem.
Open Scope N_scope.

Lemma xorp_nil s : xorp s [] = s.
Proof. now destruct s. Qed.

Lemma addat_xorp s y b : addat (xorp s y) (length y) [b] = xorp s (y ++ [b]).
Proof.
  revert y; induction s as [|x s IH]; intros [|z y]; unfold addat in *; cbn [xorp app length firstn skipn]; auto.
  f_equal. apply IH.
Qed.

Lemma xorp_zeros s y n : xorp s (y ++ repeat 0 n) = xorp s y.
Proof.
  revert y n; induction s as [|x s IH]; intros y n; [now destruct y, n|].
  destruct y as [|z y]; cbn [app xorp].
  - destruct n; cbn [repeat xorp]; auto. rewrite N.lxor_0_r. f_equal. rewrite <- (xorp_nil s) at 2. apply (IH [] n).

  - now rewrite IH.
Qed.

Lemma pad_app r b x : (0 < r)%nat -> length b = r -> pad r (b ++ x) = b ++ pad r x.
Proof.
  intros Hr Hb. unfold pad. rewrite <- app_assoc. do 4 f_equal. rewrite app_length, Hb.
  replace (r + length x)%nat with (length x + 1 * r)%nat by lia. rewrite Nat.mod_add by lia. reflexivity.
Qed.

Lemma pad_short r x : (length x < r)%nat -> length (pad r x) = r.
Proof.
  intros H. unfold pad. rewrite app_length. cbn [length]. rewrite repeat_length, Nat.mod_small by auto. lia.
Qed.

Lemma split_at {A} n (l : list A) : (n <= length l)%nat -> exists a b, l = a ++ b /\ length a = n.
Proof. intros H. exists (firstn n l), (skipn n l). rewrite firstn_skipn, firstn_length. split; auto. lia. Qed.

Lemma seq_shift_add k n j : map (fun i => (k + i)%nat) (seq j n) = seq (k + j) n.
Proof.
  revert j; induction n as [|n IH]; intros j; [reflexivity|]. cbn [seq map]. f_equal. rewrite IH. f_equal. lia.
Qed.

  Lemma xorz_nth a b i : (length a <= length b)%nat -> nth i (xorz a b) 0 = if (i <? length a)%nat then N.lxor (nth i a 0) (nth i b 0) else 0.
  Proof.
    revert b i; induction a as [|x a IH]; intros [|y b] i H; cbn [xorz length] in *; try lia; destruct i; auto.
    cbn [nth]. rewrite IH by lia. reflexivity.
  Qed.
  Lemma xorz_length a b : (length a <= length b)%nat -> length (xorz a b) = length a.
  Proof. revert b; induction a as [|x a IH]; intros [|y b] H; cbn [xorz length] in *; try lia. rewrite IH; lia. Qed.

Section Sponge.
  Variable r : nat.
  Variable p : list N -> list N.
  Hypothesis Hr : (0 < r)%nat.

  Definition absorb1 (s b : list N) := p (xorp s b).

  (* Permute lazily, before a byte that finds no room. *)
  Definition lazy_step (sa : list N * nat) (b : N) : list N * nat :=
    let '(s, a) := if (snd sa =? 0)%nat then (p (fst sa), r) else sa in
    (addat s (r - a) [b], (a - 1)%nat).
  (* Permute eagerly, after the byte that fills the block. *)
  Definition eager_step (sa : list N * nat) (b : N) : list N * nat :=
    let s := addat (fst sa) (r - snd sa) [b] in
    if (snd sa - 1 =? 0)%nat then (p s, r) else (s, (snd sa - 1)%nat).

  Lemma lazy_block s y : (length y <= r)%nat -> fold_left lazy_step y (s, r) = (xorp s y, (r - length y)%nat).
  Proof.
    induction y as [|b y IH] using rev_ind; intros H.
    - rewrite xorp_nil. cbn [fold_left length]. f_equal. lia.
    - rewrite app_length in H. cbn [length] in H. rewrite fold_left_app, IH by lia. cbn [fold_left].
      unfold lazy_step. cbn [fst snd]. replace (r - length y =? 0)%nat with false by lia.
      replace (r - (r - length y))%nat with (length y) by lia. rewrite addat_xorp, app_length. cbn [length].
      f_equal. lia.
  Qed.

  Lemma lazy_zero s b l : fold_left lazy_step (b :: l) (s, 0%nat) = fold_left lazy_step (b :: l) (p s, r).
  Proof.
    cbn [fold_left]. f_equal. unfold lazy_step. cbn [fst snd].
    replace (r =? 0)%nat with false by lia. reflexivity.
  Qed.

  Lemma lazy_spec x s :
    p (fst (lazy_step (fold_left lazy_step x (s, r)) 0x80)) = fold_left absorb1 (chunks r (pad r x)) s.
  Proof.
    remember (length x) as n eqn:En. revert x s En. induction n as [n IH] using lt_wf_ind; intros x s ->.
    destruct (Nat.ltb_spec (length x) r) as [H|H].
    - rewrite lazy_block by lia. rewrite chunks_short by (rewrite pad_short; lia).
      cbn [fold_left]. unfold absorb1, lazy_step. cbn [fst snd].
      replace (r - length x =? 0)%nat with false by lia. cbn [fst].
      replace (r - (r - length x))%nat with (length x) by lia. rewrite addat_xorp. f_equal.
      unfold pad. rewrite <- (xorp_zeros s (x ++ [0x80]) (r - 1 - length x mod r)), <- app_assoc. reflexivity.
    - destruct (split_at r x H) as (b & x' & -> & Hb). rewrite app_length in H.
      rewrite pad_app, chunks_app by auto. cbn [fold_left].
      rewrite <- (IH (length x')) by (rewrite ?app_length; auto; lia).
      f_equal. f_equal.
      rewrite fold_left_app, lazy_block by lia. replace (r - length b)%nat with 0%nat by lia.
      change (lazy_step ?sa 0x80) with (fold_left lazy_step [0x80] sa). rewrite <- !fold_left_app.
      destruct x' as [|c x']; cbn [app]; apply lazy_zero.
  Qed.

  Lemma lazy_avail x s : (snd (fold_left lazy_step x (s, r)) <= r)%nat.
  Proof.
    assert (H : forall sa, (snd sa <= r)%nat -> (snd (fold_left lazy_step x sa) <= r)%nat).
    { induction x as [|b x IH]; intros sa H; cbn [fold_left]; auto. apply IH. unfold lazy_step.
      destruct (snd sa =? 0)%nat; [cbn; lia|]. destruct sa. cbn in *. lia. }
    apply H. cbn. lia.
  Qed.

  Lemma eager_block s y : (length y < r)%nat -> fold_left eager_step y (s, r) = (xorp s y, (r - length y)%nat).
  Proof.
    induction y as [|b y IH] using rev_ind; intros H.
    - rewrite xorp_nil. cbn [fold_left length]. f_equal. lia.
    - rewrite app_length in H. cbn [length] in H. rewrite fold_left_app, IH by lia. cbn [fold_left].
      unfold eager_step. cbn [fst snd]. replace (r - length y - 1 =? 0)%nat with false by lia.
      replace (r - (r - length y))%nat with (length y) by lia. rewrite addat_xorp, app_length. cbn [length].
      f_equal. lia.
  Qed.

  Lemma eager_full s y : length y = r -> fold_left eager_step y (s, r) = (p (xorp s y), r).
  Proof.
    intros H. destruct y as [|b y _] using rev_ind; [cbn in H; lia|].
    rewrite app_length in H. cbn [length] in H. rewrite fold_left_app, eager_block by lia. cbn [fold_left].
    unfold eager_step. cbn [fst snd]. replace (r - length y - 1 =? 0)%nat with true by lia.
    replace (r - (r - length y))%nat with (length y) by lia. now rewrite addat_xorp.
  Qed.

  Lemma eager_spec x s : let sa := fold_left eager_step x (s, r) in
    p (addat (fst sa) (r - snd sa) [0x80]) = fold_left absorb1 (chunks r (pad r x)) s.
  Proof.
    cbv zeta. remember (length x) as n eqn:En. revert x s En.
    induction n as [n IH] using lt_wf_ind; intros x s ->.
    destruct (Nat.ltb_spec (length x) r) as [H|H].
    - rewrite eager_block by lia. rewrite chunks_short by (rewrite pad_short; lia).
      cbn [fold_left fst snd]. unfold absorb1.
      replace (r - (r - length x))%nat with (length x) by lia. rewrite addat_xorp. f_equal.
      unfold pad. rewrite <- (xorp_zeros s (x ++ [0x80]) (r - 1 - length x mod r)), <- app_assoc. reflexivity.
    - destruct (split_at r x H) as (b & x' & -> & Hb). rewrite app_length in H.
      rewrite pad_app, chunks_app by auto. cbn [fold_left].
      rewrite fold_left_app, eager_full by auto. apply (IH (length x')); rewrite ?app_length; auto; lia.
  Qed.

  Lemma eager_avail x s : (0 < snd (fold_left eager_step x (s, r)) <= r)%nat.
  Proof.
    assert (H : forall sa, (0 < snd sa <= r)%nat -> (0 < snd (fold_left eager_step x sa) <= r)%nat).
    { induction x as [|b x IH]; intros sa H; cbn [fold_left]; auto. apply IH. unfold eager_step.
      destruct (Nat.eqb_spec (snd sa - 1) 0); cbn; lia. }
    apply H. cbn. lia.
  Qed.

  (* invariants along the folds *)
  Variable ok : list N -> Prop.
  Hypothesis ok_p : forall s, ok s -> ok (p s).
  Hypothesis ok_add : forall s o b, b < 256 -> ok s -> ok (addat s o [b]).

  Lemma lazy_ok x sa : bytes x -> ok (fst sa) -> ok (fst (fold_left lazy_step x sa)).
  Proof.
    intros Hx; revert sa; induction Hx as [|b x Hb Hx IH]; intros sa H; cbn [fold_left]; auto.
    apply IH. unfold lazy_step. destruct (snd sa =? 0)%nat; [|destruct sa]; cbn in *; auto.
  Qed.
  Lemma eager_ok x sa : bytes x -> ok (fst sa) -> ok (fst (fold_left eager_step x sa)).
  Proof.
    intros Hx; revert sa; induction Hx as [|b x Hb Hx IH]; intros sa H; cbn [fold_left]; auto.
    apply IH. unfold eager_step. destruct (snd sa - 1 =? 0)%nat; cbn in *; auto.
  Qed.
  Lemma absorb_ok bs s : (forall t b, bytes b -> ok t -> ok (xorp t b)) -> Forall bytes bs -> ok s ->
    ok (fold_left absorb1 bs s).
  Proof.
    intros Hx Hb; revert s; induction Hb as [|b bs Hb1 Hb2 IH]; intros s Hs; cbn [fold_left]; auto. apply IH.
    unfold absorb1. auto.
  Qed.

  (* ---------- keystream ---------- *)

  Fixpoint iter (n : nat) (s : list N) : list N := match n with O => s | S n => p (iter n s) end.
  Lemma iter_S n s : iter (S n) s = iter n (p s).
  Proof. induction n as [|n IH]; auto. cbn [iter] in *. now rewrite IH. Qed.
  Lemma iter_ok n s : ok s -> ok (iter n s).
  Proof. intros H. induction n; cbn [iter]; auto. Qed.

  Definition ks_byte (s : list N) (i : nat) : N := nth (i mod r) (iter (S (i / r)) s) 0.

  Fixpoint encb (s : list N) (blocks : list (list N)) : list N :=
    match blocks with
    | [] => []
    | m :: ms => let s := p s in xorz m (firstn r s) ++ encb s ms
    end.

  Hypothesis ok_len : forall s, ok s -> (r <= length s)%nat.

  Lemma encb_spec m s : ok s ->
    encb s (chunks r m) = map (fun i => N.lxor (nth i m 0) (ks_byte s i)) (seq 0 (length m)).
  Proof using Hr ok_p ok_len.
    clear ok_add. intros Hs. remember (length m) as n eqn:En. revert m s Hs En.
    induction n as [n IH] using lt_wf_ind; intros m s Hs ->.
    assert (Hp : (r <= length (p s))%nat) by auto.
    assert (Hf : length (firstn r (p s)) = r) by (rewrite firstn_length; lia).
    assert (H1 : forall y, (length y <= r)%nat ->
      xorz y (firstn r (p s)) = map (fun i => N.lxor (nth i y 0) (ks_byte s i)) (seq 0 (length y))).
    { intros y Hy. apply (nth_ext_le _ _ 0); [rewrite xorz_length, map_length, seq_length by lia; auto|].
      intros i Hi. rewrite xorz_length in Hi by lia. rewrite xorz_nth by lia.
      rewrite (nth_map_lt _ _ _ 0%nat 0) by now rewrite seq_length. rewrite seq_nth by auto. cbn [Nat.add].
      replace (i <? length y)%nat with true by lia. f_equal. unfold ks_byte.
      rewrite Nat.mod_small, Nat.div_small by lia. cbn [iter]. now rewrite nth_firstn_lt by lia. }
    destruct (Nat.leb_spec (length m) r) as [H|H].
    - destruct m as [|x m]; [reflexivity|]. rewrite chunks_short by (cbn [length] in *; lia).
      cbn [encb]. rewrite app_nil_r. now apply H1.
    - destruct (split_at r m) as (b & m' & -> & Hb); [lia|]. rewrite app_length in H.
      rewrite chunks_app by auto. cbn [encb]. rewrite (IH (length m')) by (rewrite ?app_length; auto; lia).
      rewrite H1 by lia. rewrite app_length, seq_app, map_app. f_equal.
      + apply map_ext_in. intros i Hi. apply in_seq in Hi. now rewrite app_nth1 by lia.
      + rewrite Nat.add_comm, <- (seq_shift_add (length b) (length m') 0), map_map.
        apply map_ext. intros i. rewrite app_nth2 by lia. replace (length b + i - length b)%nat with i by lia.
        f_equal. unfold ks_byte. rewrite Hb.
        replace (r + i)%nat with (i + 1 * r)%nat by lia. rewrite Nat.mod_add, Nat.div_add by lia.
        replace (i / r + 1)%nat with (S (i / r)) by lia. now rewrite (iter_S (S (i / r))).
  Qed.
End Sponge.

(* ---------- re-keying ---------- *)

Lemma rk_absorb_snoc I s Y b :
  rk_absorb I s (Y ++ [b]) =
  i_perm I (i_sK I) (xorp (fold_left (fun s b => i_perm I (i_sB I) (xorp s (first_bit b))) Y s) (first_bit b)).
Proof.
  revert s; induction Y as [|c Y IH]; intros s; [reflexivity|]. cbn [app fold_left].
  rewrite <- IH. cbn [rk_absorb]. destruct (Y ++ [b]) eqn:E; auto. now destruct Y.
Qed.

Lemma msb_bits_length bs : length (msb_bits bs) = (8 * length bs)%nat.
Proof.
  unfold msb_bits. induction bs as [|b bs IH]; [reflexivity|]. cbn [map concat]. rewrite app_length, IH.
  rewrite map_length, seq_length. cbn [length]. lia.
Qed.

Lemma nth_msb_bits bs i : (i < 8 * length bs)%nat ->
  nth i (msb_bits bs) false = N.testbit (nth (i / 8) bs 0) (7 - N.of_nat i mod 8).
Proof.
  revert i; induction bs as [|b bs IH]; intros i H; cbn [length] in H; [lia|].
  unfold msb_bits in *. cbn [map concat].
  destruct (Nat.ltb_spec i 8) as [Hi|Hi].
  - rewrite app_nth1 by (rewrite map_length, seq_length; lia).
    rewrite (nth_map_lt _ _ _ 0%nat false) by (rewrite seq_length; lia). rewrite seq_nth by lia.
    rewrite Nat.div_small by lia. cbn [nth]. unfold bit. f_equal. rewrite N.mod_small by lia. lia.
  - rewrite app_nth2; rewrite map_length, seq_length; [|lia]. rewrite IH by lia.
    replace i with (i - 8 + 1 * 8)%nat at 3 by lia. rewrite Nat.div_add by lia.
    replace ((i - 8) / 8 + 1)%nat with (S ((i - 8) / 8)) by lia. cbn [nth]. f_equal. f_equal.
    replace (N.of_nat i) with (N.of_nat (i - 8) + 1 * 8) by lia. now rewrite N.mod_add.
Qed.

Lemma first_bit_val b k : u8 (N.shiftl (N.land (N.shiftr b k) 1) 7) = if N.testbit b k then 0x80 else 0.
Proof.
  replace (N.land (N.shiftr b k) 1) with (N.b2n (N.testbit b k)).
  - destruct (N.testbit b k); reflexivity.
  - rewrite <- N.testbit_spec' || idtac.
    change 1 with (N.ones 1). rewrite N.land_ones. change (2 ^ 1) with 2.
    rewrite <- N.bit0_mod, N.shiftr_spec by lia. now rewrite N.add_0_l.
Qed.
