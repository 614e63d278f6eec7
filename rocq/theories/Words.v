(* Facts about the word/byte/bit conversions of SpecPerm.v. Proofs only. *)
From Verif Require Import Base Prog SpecPerm.
Open Scope N_scope.

Lemma tb_N_of_bits l i : N.testbit (N_of_bits l) i = nth (N.to_nat i) l false.
Proof.
  revert i; induction l as [|b l IH]; intros i; simpl.
  - rewrite N.bits_0. now destruct (N.to_nat i).
  - destruct (N.eq_dec i 0) as [->|Hi].
    + change (N.to_nat 0) with 0%nat. rewrite N.bit0_odd, N.odd_add, N.odd_mul.
      destruct b; simpl; reflexivity.
    + replace i with (N.succ (i - 1)) at 1 by lia.
      replace (N.to_nat i) with (S (N.to_nat (i - 1))) by lia.
      rewrite <- IH. destruct b; simpl b2n.
      * rewrite N.add_comm. apply N.testbit_odd_succ. lia.
      * rewrite N.add_0_l. apply N.testbit_even_succ. lia.
Qed.

Lemma tb_mkword w f i : N.testbit (mkword w f) i = (i <? N.of_nat w) && f (N.to_nat i).
Proof.
  unfold mkword. rewrite tb_N_of_bits.
  destruct (N.ltb_spec i (N.of_nat w)) as [H|H]; simpl.
  - rewrite (nth_map_lt _ _ _ O) by (rewrite seq_length; lia). now rewrite seq_nth by lia.
  - apply nth_overflow. rewrite map_length, seq_length. lia.
Qed.

Lemma mkword_lt w f : mkword w f < 2 ^ N.of_nat w.
Proof.
  apply lt_pow2_tb. intros i Hi. rewrite tb_mkword. destruct (N.ltb_spec i (N.of_nat w)); auto; lia.
Qed.

Lemma tb_byte_at v k i : N.testbit (byte_at v k) i = (i <? 8) && N.testbit v (i + 8 * N.of_nat k).
Proof.
  unfold byte_at. change 255 with (N.ones 8). fold (wtrunc 8 (N.shiftr v (8 * N.of_nat k))).
  now rewrite tb_wtrunc, tb_shiftr.
Qed.

Lemma byte_at_lt v k : byte_at v k < 256.
Proof.
  change 256 with (2 ^ 8). apply lt_pow2_tb. intros i Hi. rewrite tb_byte_at.
  destruct (N.ltb_spec i 8); auto; lia.
Qed.

Lemma bytes_word_le n v : bytes (word_le n v).
Proof. unfold word_le, bytes. apply Forall_map, Forall_forall. intros. apply byte_at_lt. Qed.
Lemma bytes_word_be n v : bytes (word_be n v).
Proof. unfold word_be, bytes. apply Forall_map, Forall_forall. intros. apply byte_at_lt. Qed.
Lemma word_le_length n v : length (word_le n v) = n.
Proof. unfold word_le. now rewrite map_length, seq_length. Qed.
Lemma word_be_length n v : length (word_be n v) = n.
Proof. unfold word_be. now rewrite map_length, seq_length. Qed.

Lemma be_word_snoc bs b : be_word (bs ++ [b]) = 256 * be_word bs + b.
Proof. unfold be_word. now rewrite fold_left_app. Qed.

Lemma le_word_cons b bs : le_word (b :: bs) = b + 256 * le_word bs.
Proof. unfold le_word. simpl rev. rewrite be_word_snoc. lia. Qed.

Lemma tb_le_word bs i : bytes bs ->
  N.testbit (le_word bs) i = N.testbit (nth (N.to_nat (i / 8)) bs 0) (i mod 8).
Proof.
  intros H. revert i; induction H as [|b bs Hb H IH]; intros i.
  - change (le_word []) with 0. rewrite N.bits_0. destruct (N.to_nat (i / 8)); simpl; now rewrite N.bits_0.
  - rewrite le_word_cons.
    assert (E : b + 256 * le_word bs = N.lxor b (N.shiftl (le_word bs) 8)).
    { rewrite N.shiftl_mul_pow2. change (2 ^ 8) with 256. rewrite (N.mul_comm _ 256).
      apply N.add_nocarry_lxor. apply bits_inj_iff'. intros j.
      rewrite N.land_spec, N.bits_0, N.mul_comm. change 256 with (2 ^ 8) in *.
      rewrite <- N.shiftl_mul_pow2, tb_shiftl.
      destruct (N.leb_spec 8 j); simpl.
      - now rewrite (tb_high b 8).
      - apply andb_false_r. }
    rewrite E, N.lxor_spec, tb_shiftl. destruct (N.leb_spec 8 i) as [Hi|Hi]; simpl.
    + change 256 with (2 ^ 8) in Hb. rewrite (tb_high b 8) by auto. rewrite xorb_false_l, IH.
      replace (N.to_nat (i / 8)) with (S (N.to_nat ((i - 8) / 8))) by lia. simpl.
      f_equal. lia.
    + rewrite xorb_false_r. replace (i / 8) with 0 by lia. change (N.to_nat 0) with 0%nat. simpl. f_equal. lia.
Qed.

Lemma le_word_lt bs : bytes bs -> le_word bs < 2 ^ (8 * N.of_nat (length bs)).
Proof.
  intros H. apply lt_pow2_tb. intros i Hi. rewrite tb_le_word by auto.
  rewrite nth_overflow by lia. apply N.bits_0.
Qed.

Lemma bytes_rev bs : bytes bs -> bytes (rev bs).
Proof. apply Forall_rev. Qed.

Lemma be_word_rev bs : be_word bs = le_word (rev bs).
Proof. unfold le_word. now rewrite rev_involutive. Qed.

Lemma be_word_lt bs : bytes bs -> be_word bs < 2 ^ (8 * N.of_nat (length bs)).
Proof. intros H. rewrite be_word_rev, <- rev_length. apply le_word_lt. now apply bytes_rev. Qed.

Lemma nth_word_le n v i : (i < n)%nat -> nth i (word_le n v) 0 = byte_at v i.
Proof.
  intros H. unfold word_le. rewrite (nth_map_lt _ _ _ O) by (rewrite seq_length; auto).
  now rewrite seq_nth by auto.
Qed.

Lemma nth_word_be n v i : (i < n)%nat -> nth i (word_be n v) 0 = byte_at v (n - 1 - i).
Proof.
  intros H. unfold word_be. rewrite (nth_map_lt _ _ _ O) by (rewrite seq_length; auto).
  now rewrite seq_nth by auto.
Qed.

Lemma word_be_rev n v : word_be n v = rev (word_le n v).
Proof.
  apply (nth_ext_le _ _ 0).
  - now rewrite rev_length, word_be_length, word_le_length.
  - intros i Hi. rewrite word_be_length in Hi. rewrite rev_nth by now rewrite word_le_length.
    rewrite word_le_length, nth_word_be, nth_word_le by lia. f_equal. lia.
Qed.

Lemma le_word_word_le n v : v < 2 ^ (8 * N.of_nat n) -> le_word (word_le n v) = v.
Proof.
  intros Hv. apply bits_inj_iff'. intros i. rewrite tb_le_word by apply bytes_word_le.
  destruct (N.ltb_spec i (8 * N.of_nat n)) as [Hi|Hi].
  - rewrite nth_word_le by lia. rewrite tb_byte_at.
    destruct (N.ltb_spec (i mod 8) 8); [|lia]. simpl. f_equal. lia.
  - rewrite nth_overflow by (rewrite word_le_length; lia). rewrite N.bits_0.
    symmetry. now apply (tb_high _ (8 * N.of_nat n)).
Qed.

Lemma word_le_le_word bs n : bytes bs -> length bs = n -> word_le n (le_word bs) = bs.
Proof.
  intros H Hn. apply (nth_ext_le _ _ 0); rewrite word_le_length; auto.
  intros i Hi. rewrite nth_word_le by auto. apply bits_inj_iff'. intros j.
  rewrite tb_byte_at, tb_le_word by auto.
  destruct (N.ltb_spec j 8) as [Hj|Hj]; simpl.
  - f_equal; [|lia]. f_equal. lia.
  - symmetry. apply (tb_high _ 8); auto. change (2 ^ 8) with 256. apply Forall_nth_lt; auto. lia.
Qed.

Lemma be_word_word_be n v : v < 2 ^ (8 * N.of_nat n) -> be_word (word_be n v) = v.
Proof. intros. rewrite be_word_rev, word_be_rev, rev_involutive. now apply le_word_word_le. Qed.

Lemma word_be_be_word bs n : bytes bs -> length bs = n -> word_be n (be_word bs) = bs.
Proof.
  intros H Hn. rewrite be_word_rev, word_be_rev, word_le_le_word.
  - apply rev_involutive.
  - now apply bytes_rev.
  - now rewrite rev_length.
Qed.

(* chunks *)
Lemma chunks_fuel_more {A} r (l : list A) f g : (0 < r)%nat -> (length l <= f)%nat -> (length l <= g)%nat ->
  chunks_fuel f r l = chunks_fuel g r l.
Proof.
  intros Hr. revert g l; induction f as [|f IH]; intros g l Hf Hg.
  - destruct l; simpl in *; [now destruct g | lia].
  - destruct l as [|x l]; simpl in *; [now destruct g|].
    destruct g as [|g]; simpl in *; [lia|]. f_equal. apply IH; rewrite skipn_length; cbn [length]; lia.
Qed.

Lemma chunks_nil {A} r : chunks r (@nil A) = [].
Proof. reflexivity. Qed.

Lemma chunks_cons {A} r (l : list A) : (0 < r)%nat -> l <> [] ->
  chunks r l = firstn r l :: chunks r (skipn r l).
Proof.
  intros Hr Hl. unfold chunks at 1. destruct l as [|x l]; [congruence|].
  simpl. f_equal. unfold chunks. apply chunks_fuel_more; auto; rewrite ?skipn_length; cbn [length]; lia.
Qed.

Lemma chunks_app {A} r (a b : list A) : (0 < r)%nat -> length a = r -> chunks r (a ++ b) = a :: chunks r b.
Proof.
  intros Hr Ha. rewrite chunks_cons; auto.
  - rewrite firstn_app, skipn_app, <- Ha, Nat.sub_diag, firstn_all, skipn_all. simpl. now rewrite app_nil_r.
  - destruct a; simpl in *; [lia|discriminate].
Qed.

Lemma chunks_short {A} r (l : list A) : (0 < length l <= r)%nat -> chunks r l = [l].
Proof.
  intros H. rewrite chunks_cons; [|lia|destruct l; simpl in *; [lia|discriminate]].
  rewrite firstn_all2, skipn_all2 by lia. reflexivity.
Qed.

Lemma chunks_concat {A} r (ls : list (list A)) : (0 < r)%nat -> Forall (fun l => length l = r) ls ->
  chunks r (concat ls) = ls.
Proof.
  intros Hr H. induction H as [|l ls Hl H IH]; simpl; auto. rewrite chunks_app by auto. now f_equal.
Qed.

Lemma concat_chunks {A} r (l : list A) : (0 < r)%nat -> concat (chunks r l) = l.
Proof.
  intros Hr. remember (length l) as n eqn:Hn. revert l Hn.
  induction n as [n IH] using lt_wf_ind; intros l Hn.
  destruct l as [|x l]; auto. rewrite chunks_cons by (auto; discriminate). simpl concat.
  rewrite IH with (m := length (skipn r (x :: l))); auto.
  - apply firstn_skipn.
  - rewrite skipn_length. cbn [length] in *. lia.
Qed.

Lemma chunks_length_mult {A} r n (l : list A) : (0 < r)%nat -> length l = (n * r)%nat ->
  length (chunks r l) = n /\ Forall (fun c => length c = r) (chunks r l).
Proof.
  intros Hr. revert l; induction n as [|n IH]; intros l Hl.
  - destruct l; simpl in *; [|lia]. split; auto. constructor.
  - rewrite chunks_cons; [|auto|destruct l; simpl in *; [lia|discriminate]].
    destruct (IH (skipn r l)) as [H1 H2]; [rewrite skipn_length; lia|].
    split; [simpl; now rewrite H1|]. constructor; auto. rewrite firstn_length. lia.
Qed.

Lemma chunks_Forall {A} (P : A -> Prop) r (l : list A) : Forall P l -> Forall (Forall P) (chunks r l).
Proof.
  intros H. unfold chunks. generalize (length l) as f. intros f. revert l H.
  induction f as [|f IH]; intros l H; [constructor|]. destruct l; [constructor|].
  simpl chunks_fuel. constructor.
  - rewrite <- (firstn_skipn r (a :: l)) in H. now apply Forall_app in H.
  - apply IH. rewrite <- (firstn_skipn r (a :: l)) in H. now apply Forall_app in H.
Qed.
