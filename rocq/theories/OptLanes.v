(* The 40-byte Ascon state as five 64-bit lanes in some representation, and the sponge operations of ISAP on it.
   Proofs only, apart from auxiliary notions. *)
From Verif Require Import Base Prog Poly SpecPerm Words AsconProof Mem Vocab MemProof RefLib Sponge OptPerm OptRep OptPermProof OptIsap.
From Verif Require Spec.
Import Spec(xorp, xorz).
Open Scope N_scope.

Definition wf40 (s : list N) : Prop := length s = 40%nat /\ bytes s.
Definition lanes (bs : list N) : list N := map be_word (chunks 8 bs).
(* The lanes of bs in representation f. *)
Definition stf (f : nat -> nat) (bs : list N) : list N := map (permw f) (lanes bs).
(* Lane number i as a string. *)
Definition lane_bytes (bs : list N) (i : nat) : list N := firstn 8 (skipn (8 * i) bs).

Lemma skipn_add {A} (l : list A) n k : skipn n (skipn k l) = skipn (n + k) l.
Proof.
  revert l; induction k as [|k IH]; intros l; [now rewrite Nat.add_0_r|].
  rewrite Nat.add_succ_r. destruct l as [|x l]; [now rewrite !skipn_nil|]. apply IH.
Qed.

Lemma wf40_split s : wf40 s -> exists a b c d e, s = a ++ b ++ c ++ d ++ e /\
  (length a = 8 /\ length b = 8 /\ length c = 8 /\ length d = 8 /\ length e = 8)%nat /\
  bytes a /\ bytes b /\ bytes c /\ bytes d /\ bytes e.
Proof.
  intros [L B]. exists (firstn 8 s), (firstn 8 (skipn 8 s)), (firstn 8 (skipn 16 s)), (firstn 8 (skipn 24 s)), (skipn 32 s).
  repeat split; rewrite ?firstn_length, ?skipn_length; try lia; repeat (apply bytes_firstn || apply bytes_skipn); auto.
  assert (F : forall o, skipn o s = firstn 8 (skipn o s) ++ skipn (8 + o) s).
  { intros o. now rewrite <- skipn_add, firstn_skipn. }
  change s with (skipn 0 s) at 1. now rewrite (F 0%nat), (F (8 + 0)%nat), (F (8 + (8 + 0))%nat), (F (8 + (8 + (8 + 0)))%nat).
Qed.

Lemma lanes_split a b c d e : (length a = 8 /\ length b = 8 /\ length c = 8 /\ length d = 8 /\ length e = 8)%nat ->
  lanes (a ++ b ++ c ++ d ++ e) = [be_word a; be_word b; be_word c; be_word d; be_word e].
Proof.
  intros (H1 & H2 & H3 & H4 & H5). unfold lanes.
  rewrite !chunks_app by (auto; lia). rewrite chunks_short by lia. reflexivity.
Qed.

Lemma lanes_cons h t : length h = 8%nat -> lanes (h ++ t) = be_word h :: lanes t.
Proof. intros H. unfold lanes. now rewrite chunks_app by (auto; lia). Qed.

Lemma lanes_words s : wf40 s -> words5 (lanes s).
Proof. intros [L B]. now apply words5_chunks. Qed.

Lemma stf_length f s : wf40 s -> length (stf f s) = 5%nat.
Proof. intros H. unfold stf. rewrite map_length. apply (lanes_words s H). Qed.

Lemma wf40_ascon r s : wf40 s -> wf40 (ascon_p r s).
Proof. intros [L B]. destruct (ascon_p_bytes r s B L). now split. Qed.
Lemma wf40_xorp s b : bytes b -> wf40 s -> wf40 (xorp s b).
Proof. intros Hb [L B]. split; [now rewrite xorp_length|now apply bytes_xorp]. Qed.

Lemma lanes_ascon r s : wf40 s -> lanes (ascon_p r s) = ascon_p_words r (lanes s).
Proof.
  intros H. unfold ascon_p, lanes at 1. fold (lanes s).
  pose proof (ascon_p_words_words r _ (lanes_words s H)) as [H1 H2].
  rewrite chunks_concat; [|lia|].
  - rewrite map_map. rewrite <- (map_id (ascon_p_words r (lanes s))) at 2. apply map_ext_in.
    intros w Hw. apply be_word_word_be. rewrite Forall_forall in H2. apply (H2 w Hw).
  - apply Forall_map, Forall_forall. intros. apply word_be_length.
Qed.

Lemma stf_perm f a rs r s : ap_ok f a rs -> In r rs -> wf40 s ->
  PROUNDS a (N.of_nat r) (stf f s) = stf f (ascon_p r s).
Proof.
  intros H Hr Hs. unfold stf at 1. rewrite (ap_rounds f a rs H r _ Hr) by now apply lanes_words.
  unfold stf. now rewrite lanes_ascon.
Qed.

(* ---------- words as strings ---------- *)

Lemma be_word_xorz a b : bytes a -> bytes b -> length a = length b ->
  be_word (xorz a b) = N.lxor (be_word a) (be_word b).
Proof.
  intros Ba Bb L. rewrite !be_word_rev. apply bits_inj_iff'. intros i. rewrite N.lxor_spec.
  assert (Lz : length (xorz a b) = length a) by (apply xorz_length; lia).
  assert (Bz : bytes (xorz a b)).
  { clear Lz. revert b Bb L. induction Ba as [|x a Hx Ba IH]; intros b Bb L; cbn [xorz]; [constructor|].
    destruct b as [|y b]; [constructor|]. inversion Bb; subst. constructor; [now apply lxor_byte|]. apply IH; auto. }
  rewrite !tb_le_word by now apply bytes_rev.
  destruct (Nat.ltb_spec (N.to_nat (i / 8)) (length a)) as [Hi|Hi].
  - rewrite !rev_nth by lia. rewrite xorz_nth by lia. rewrite Lz, <- L.
    replace (length a - S (N.to_nat (i / 8)) <? length a)%nat with true by lia. apply N.lxor_spec.
  - rewrite !nth_overflow by (rewrite rev_length; lia). now rewrite N.bits_0.
Qed.

Lemma xorp_full h b : length b = length h -> xorp h b = xorz h b.
Proof.
  revert b; induction h as [|x h IH]; intros [|y b] L; try discriminate; auto.
  cbn [xorp xorz]. injection L as L. now rewrite IH.
Qed.

Lemma xorp_app h t b : (length b <= length h)%nat -> xorp (h ++ t) b = xorp h b ++ t.
Proof.
  revert b; induction h as [|x h IH]; intros b L.
  - destruct b; [|cbn [length] in L; lia]. now rewrite !xorp_nil.
  - destruct b as [|y b]; [now rewrite !xorp_nil|]. cbn [app xorp length] in *. now rewrite IH by lia.
Qed.

(* A block placed in lane 0. *)
Definition blk_word (b : list N) : N := be_word (b ++ repeat 0 (8 - length b)).

Lemma blk_word_full b : length b = 8%nat -> blk_word b = be_word b.
Proof. intros H. unfold blk_word. rewrite H. cbn [repeat Nat.sub]. now rewrite app_nil_r. Qed.

Lemma w64_be b : bytes b -> length b = 8%nat -> w64 (be_word b).
Proof. intros B L. pose proof (be_word_lt b B) as H. now rewrite L in H. Qed.
Lemma w64_blk b : bytes b -> (length b <= 8)%nat -> w64 (blk_word b).
Proof.
  intros B L. apply w64_be.
  - apply bytes_app. split; auto. apply bytes_repeat. lia.
  - rewrite app_length, repeat_length. lia.
Qed.

Lemma stf_xor f s b : wf40 s -> bytes b -> (length b <= 8)%nat ->
  setx (stf f s) 0 (N.lxor (getx (stf f s) 0) (permw f (blk_word b))) = stf f (xorp s b).
Proof.
  intros W B L. destruct (wf40_split s W) as (h & x2 & x3 & x4 & x5 & -> & (L1 & L2 & L3 & L4 & L5) & B1 & _).
  rewrite xorp_app by lia. rewrite <- (xorp_zeros h b (8 - length b)).
  set (z := b ++ repeat 0 (8 - length b)).
  assert (Lz : length z = 8%nat) by (unfold z; rewrite app_length, repeat_length; lia).
  assert (Bz : bytes z) by (apply bytes_app; split; auto; apply bytes_repeat; lia).
  rewrite xorp_full by lia. unfold stf, setx, getx. rewrite !lanes_cons; auto; [|rewrite xorz_length; lia].
  cbn [map nth upd_nth]. f_equal. rewrite be_word_xorz by (auto; lia). rewrite permw_xor. reflexivity.
Qed.

(* Bit set at the first position of the state. *)
Lemma blk_word_80 : blk_word [0x80] = 2 ^ 63.
Proof. reflexivity. Qed.

Lemma stf_top f a rs s (b : bool) : ap_ok f a rs -> wf40 s ->
  setx (stf f s) 0 (xor_b (getx (stf f s) 0) 7 (if b then 0x80 else 0)) = stf f (xorp s (Spec.first_bit b)).
Proof.
  intros H W. unfold Spec.first_bit.
  rewrite <- stf_xor; [|exact W|destruct b; repeat constructor|cbn; lia].
  do 2 f_equal. unfold xor_b. destruct b.
  - rewrite blk_word_80, (ap_top f a rs H). reflexivity.
  - change (blk_word [0]) with 0. rewrite permw_0. reflexivity.
Qed.

Lemma stf_getx f s i : wf40 s -> (i < 5)%nat -> getx (stf f s) i = permw f (be_word (lane_bytes s i)).
Proof.
  intros W Hi. unfold getx, stf, lanes, lane_bytes. destruct W as [L B]. rewrite chunks8_40 by auto.
  cbn [map]. destruct i as [|[|[|[|[|i]]]]]; try lia; reflexivity.
Qed.

Lemma lane_bytes_length s i : wf40 s -> (i < 5)%nat -> length (lane_bytes s i) = 8%nat.
Proof. intros [L B] Hi. unfold lane_bytes. rewrite firstn_length, skipn_length. lia. Qed.
Lemma lane_bytes_bytes s i : wf40 s -> bytes (lane_bytes s i).
Proof. intros [L B]. now apply bytes_firstn, bytes_skipn. Qed.
Lemma lane_w64 s i : wf40 s -> (i < 5)%nat -> w64 (be_word (lane_bytes s i)).
Proof. intros H Hi. apply w64_be; [now apply lane_bytes_bytes|now apply lane_bytes_length]. Qed.

(* Converting a represented lane back gives its bytes. *)
Lemma word_le_swap b : bytes b -> length b = 8%nat -> word_le 8 (be_word (word_le 8 (be_word b))) = b.
Proof.
  intros B L. replace (be_word (word_le 8 (be_word b))) with (le_word b).
  - now apply word_le_le_word.
  - rewrite <- (be_word_word_be 8 (le_word b)).
    + f_equal. rewrite word_be_rev, word_le_le_word by auto.
      rewrite be_word_rev, word_le_le_word; auto; [now apply bytes_rev|now rewrite rev_length].
    + pose proof (le_word_lt b B) as H. now rewrite L in H.
Qed.

Lemma lane_out f a rs s i : ap_ok f a rs -> wf40 s -> (i < 5)%nat ->
  word_le 8 (WORDTOU64 a (getx (stf f s) i)) = lane_bytes s i /\ w64 (WORDTOU64 a (getx (stf f s) i)).
Proof.
  intros H W Hi. rewrite stf_getx by auto. rewrite (ap_out f a rs H) by now apply lane_w64. split.
  - apply word_le_swap; [now apply lane_bytes_bytes|now apply lane_bytes_length].
  - apply w64_swap.
Qed.

Lemma lane_in f a rs b : ap_ok f a rs -> bytes b -> length b = 8%nat -> U64TOWORD a (le_word b) = permw f (be_word b).
Proof.
  intros H B L. rewrite (ap_in f a rs H).
  - now rewrite word_le_le_word.
  - pose proof (le_word_lt b B) as Hl. now rewrite L in Hl.
Qed.

(* Domain separation. *)
Lemma stf_dom f a rs s : ap_ok f a rs -> wf40 s ->
  setx (stf f s) 4 (N.lxor (getx (stf f s) 4) 1) = stf f (xorp s (repeat 0 39 ++ [1])).
Proof.
  intros H W. destruct (wf40_split s W) as (x1 & x2 & x3 & x4 & x5 & -> & (L1 & L2 & L3 & L4 & L5) & B1 & B2 & B3 & B4 & B5).
  assert (E : xorp (x1 ++ x2 ++ x3 ++ x4 ++ x5) (repeat 0 39 ++ [1]) = x1 ++ x2 ++ x3 ++ x4 ++ xorz x5 (repeat 0 7 ++ [1])).
  { apply (nth_ext_le _ _ 0); rewrite ?xorp_length, !app_length, ?xorz_length by (cbn [repeat app length]; lia); [reflexivity|].
    intros i Hi. rewrite nth_xorp. replace (i <? _)%nat with true by (rewrite !app_length; lia).
    assert (Hz : forall j, (j < 39)%nat -> nth j (repeat 0 39 ++ [1]) 0 = 0).
    { intros j Hj. rewrite app_nth1 by (rewrite repeat_length; lia). apply nth_repeat. }
    rewrite !app_assoc. destruct (Nat.ltb_spec i 32) as [Hc|Hc].
    - rewrite Hz by lia. rewrite N.lxor_0_r. rewrite !(app_nth1 (((x1 ++ x2) ++ x3) ++ x4)) by (rewrite !app_length; lia). reflexivity.
    - rewrite !(app_nth2 (((x1 ++ x2) ++ x3) ++ x4)) by (rewrite !app_length; lia).
      replace (length (((x1 ++ x2) ++ x3) ++ x4)) with 32%nat by (rewrite !app_length; lia).
      rewrite xorz_nth by (cbn [repeat app length]; lia). replace (i - 32 <? length x5)%nat with true by lia. f_equal.
      destruct (Nat.eq_dec i 39) as [->|Hn]; [reflexivity|]. rewrite Hz by lia.
      rewrite app_nth1 by (cbn [repeat length]; lia). now rewrite nth_repeat. }
  rewrite E. unfold stf, setx, getx. rewrite !lanes_split by (repeat split; rewrite ?xorz_length; cbn [repeat app length]; lia).
  cbn [map nth upd_nth]. do 5 f_equal. rewrite be_word_xorz; [|auto|repeat constructor|cbn [repeat app length]; lia].
  rewrite permw_xor. f_equal. change (be_word (repeat 0 7 ++ [1])) with 1. now rewrite (ap_one f a rs H).
Qed.

(* ---------- partial lanes ---------- *)

Lemma be_word_app_zeros x n : be_word (x ++ repeat 0 n) = N.shiftl (be_word x) (8 * N.of_nat n).
Proof.
  induction n as [|n IH].
  - cbn [repeat]. rewrite app_nil_r. now rewrite N.mul_0_r, N.shiftl_0_r.
  - replace (repeat 0 (S n)) with (repeat 0 n ++ [0]) by (rewrite <- repeat_cons; reflexivity).
    rewrite app_assoc, be_word_snoc, IH. rewrite !N.shiftl_mul_pow2.
    replace (8 * N.of_nat (S n)) with (8 * N.of_nat n + 8) by lia. rewrite N.pow_add_r. change (2 ^ 8) with 256. lia.
Qed.

Lemma be_word_zeros n x : be_word (repeat 0 n ++ x) = be_word x.
Proof.
  unfold be_word. rewrite fold_left_app. f_equal. induction n as [|n IH]; auto.
Qed.

Lemma xor_b_snoc x v : bytes x -> v < 256 -> (length x < 8)%nat ->
  xor_b (blk_word x) (7 - N.of_nat (length x)) v = blk_word (x ++ [v]).
Proof.
  intros B Hv L. unfold xor_b, blk_word, u8. rewrite N.mod_small by auto.
  replace (8 - length x)%nat with (S (7 - length x)) by lia. cbn [repeat].
  assert (E : (x ++ [v]) ++ repeat 0 (8 - length (x ++ [v])) =
              xorz (x ++ 0 :: repeat 0 (7 - length x)) (repeat 0 (length x) ++ v :: repeat 0 (7 - length x))).
  { apply (nth_ext_le _ _ 0).
    - rewrite xorz_length; rewrite !app_length; cbn [length]; rewrite !repeat_length; lia.
    - intros i Hi. rewrite app_length, repeat_length in Hi.
      rewrite xorz_nth by (rewrite !app_length; cbn [length]; rewrite !repeat_length; lia).
      replace (i <? _)%nat with true by (rewrite !app_length; cbn [length]; rewrite repeat_length; rewrite app_length in Hi; cbn [length] in Hi; lia).
      destruct (lt_eq_lt_dec i (length x)) as [[Hc|Hc]|Hc].
      + rewrite !(app_nth1 x) by lia. rewrite <- app_assoc, app_nth1 by lia.
        rewrite app_nth1 by (rewrite repeat_length; lia). now rewrite nth_repeat, N.lxor_0_r.
      + subst i. rewrite <- app_assoc. rewrite !(app_nth2 x) by lia.
        rewrite (app_nth2 (repeat 0 (length x))) by (rewrite repeat_length; lia).
        rewrite repeat_length, Nat.sub_diag. reflexivity.
      + rewrite app_nth2 by (rewrite app_length; cbn [length]; lia). rewrite nth_repeat.
        rewrite (app_nth2 x) by lia. rewrite (app_nth2 (repeat 0 (length x))) by (rewrite repeat_length; lia). rewrite repeat_length.
        replace (i - length x)%nat with (S (i - length x - 1)) by lia. cbn [nth]. now rewrite !nth_repeat. }
  rewrite E, be_word_xorz.
  - f_equal. rewrite be_word_zeros. change (v :: repeat 0 (7 - length x)) with ([v] ++ repeat 0 (7 - length x)).
    rewrite be_word_app_zeros. change (be_word [v]) with (256 * 0 + v). rewrite N.mul_0_r, N.add_0_l. f_equal. lia.
  - apply bytes_app. split; auto. constructor; [lia|]. apply bytes_repeat. lia.
  - apply bytes_app. split; [apply bytes_repeat; lia|]. constructor; auto. apply bytes_repeat. lia.
  - rewrite !app_length. cbn [length]. rewrite !repeat_length. lia.
Qed.

(* Absorbing: the padded input is the full blocks followed by one padded block. *)
Lemma pad_chunks x : let q := (length x / 8)%nat in
  chunks 8 (Spec.pad 8 x) = chunks 8 (firstn (8 * q) x) ++ [skipn (8 * q) x ++ 0x80 :: repeat 0 (7 - length (skipn (8 * q) x))].
Proof.
  cbv zeta. remember (length x / 8)%nat as q eqn:Eq. revert x Eq. induction q as [|q IH]; intros x Eq.
  - rewrite Nat.mul_0_r. cbn [firstn skipn]. rewrite chunks_nil. cbn [app]. unfold Spec.pad.
    assert (length x < 8)%nat by lia. rewrite Nat.mod_small by lia.
    replace (8 - 1 - length x)%nat with (7 - length x)%nat by lia.
    apply chunks_short. rewrite app_length. cbn [length]. rewrite repeat_length. lia.
  - destruct (split_at 8 x) as (h & t & -> & Lh); [lia|]. rewrite app_length in Eq.
    rewrite pad_app by (auto; lia). rewrite chunks_app by (auto; lia).
    rewrite (IH t) by (rewrite Lh in Eq; replace (8 + length t)%nat with (length t + 1 * 8)%nat in Eq by lia; rewrite Nat.div_add in Eq by lia; lia).
    replace (8 * S q)%nat with (length h + 8 * q)%nat by lia. rewrite firstn_app_2, chunks_app by (auto; lia).
    rewrite skipn_app. rewrite (skipn_all2 h) by lia. cbn [app]. do 2 f_equal.
    replace (length h + 8 * q - length h)%nat with (8 * q)%nat by lia. reflexivity.
Qed.

Lemma chunks_firstn_S (x : list N) k : (8 * S k <= length x)%nat ->
  chunks 8 (firstn (8 * S k) x) = chunks 8 (firstn (8 * k) x) ++ [firstn 8 (skipn (8 * k) x)].
Proof.
  intros H. revert x H. induction k as [|k IH]; intros x H.
  - rewrite Nat.mul_0_r. change (8 * 1)%nat with 8%nat in *. change (firstn 0 x) with (@nil N). cbn [skipn].
    rewrite chunks_nil, chunks_short; auto. rewrite firstn_length. lia.
  - destruct (split_at 8 x) as (h & t & -> & Lh); [lia|]. rewrite app_length in H.
    replace (8 * S (S k))%nat with (length h + 8 * S k)%nat by lia. rewrite firstn_app_2, chunks_app by (auto; lia).
    replace (8 * S k)%nat with (length h + 8 * k)%nat at 2 by lia. rewrite firstn_app_2, chunks_app by (auto; lia).
    rewrite IH by lia. replace (8 * S k)%nat with (length h + 8 * k)%nat by lia. rewrite skipn_app, (skipn_all2 h) by lia.
    replace (length h + 8 * k - length h)%nat with (8 * k)%nat by lia. reflexivity.
Qed.
