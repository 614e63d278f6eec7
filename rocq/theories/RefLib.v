(* The state-access and permutation functions of the reference libraries, as functions on whole state blocks.
   Proofs only. *)
From Verif Require Import Base Prog SpecPerm Spec Words RefPerm AsconProof KeccakProof Mem Vocab MemProof RefIsap.
Open Scope N_scope.
Open Scope cm_scope.

Lemma xorp_length s b : length (xorp s b) = length s.
Proof. revert b; induction s as [|x s IH]; intros [|y b]; simpl; auto. Qed.

Lemma nth_xorp s b i : nth i (xorp s b) 0 = if (i <? length s)%nat then N.lxor (nth i s 0) (nth i b 0) else 0.
Proof.
  revert b i; induction s as [|x s IH]; intros b i.
  - simpl. destruct i; reflexivity.
  - destruct b as [|y b].
    + cbn [xorp]. destruct (Nat.ltb_spec i (length (x :: s))) as [H|H].
      * destruct i; cbn [nth]; now rewrite ?N.lxor_0_r.
      * now apply nth_overflow.
    + destruct i as [|i]; cbn [xorp nth length]; auto. rewrite IH. reflexivity.
Qed.

Lemma lxor_byte a b : a < 256 -> b < 256 -> N.lxor a b < 256.
Proof. change 256 with (2 ^ 8). apply lxor_lt. Qed.

Lemma bytes_xorp s b : bytes s -> bytes b -> bytes (xorp s b).
Proof.
  intros Hs; revert b; induction Hs as [|x s Hx Hs IH]; intros b Hb; [constructor|].
  destruct b as [|y b]; cbn [xorp]; [now constructor|]. inversion Hb; subst.
  constructor; [now apply lxor_byte | now apply IH].
Qed.

Lemma bytes_nth l i : bytes l -> nth i l 0 < 256.
Proof.
  intros H. destruct (Nat.ltb_spec i (length l)) as [Hi|Hi].
  - now apply (Forall_nth_lt (fun b => b < 256)).
  - rewrite nth_overflow by auto. lia.
Qed.

(* Bytes bs XORed into s from position off on. *)
Definition addat (s : list N) (off : nat) (bs : list N) : list N := firstn off s ++ xorp (skipn off s) bs.

Lemma addat_length s off bs : length (addat s off bs) = length s.
Proof. unfold addat. rewrite app_length, xorp_length, <- app_length, firstn_skipn. reflexivity. Qed.

Lemma nth_addat s off bs i : nth i (addat s off bs) 0 =
  if (i <? length s)%nat then N.lxor (nth i s 0) (if (off <=? i)%nat then nth (i - off) bs 0 else 0) else 0.
Proof.
  destruct (Nat.ltb_spec i (length s)) as [Hi|Hi].
  - unfold addat. destruct (Nat.leb_spec off i) as [Ho|Ho].
    + rewrite app_nth2; rewrite firstn_length; [|lia]. rewrite nth_xorp, skipn_length, nth_skipn_add.
      replace (i - Nat.min off (length s))%nat with (i - off)%nat by lia.
      destruct (Nat.ltb_spec (i - off) (length s - off)); [|lia]. f_equal. f_equal. lia.
    + rewrite app_nth1 by (rewrite firstn_length; lia). rewrite nth_firstn_lt by lia. now rewrite N.lxor_0_r.
  - apply nth_overflow. now rewrite addat_length.
Qed.

Lemma bytes_addat s off bs : bytes s -> bytes bs -> bytes (addat s off bs).
Proof.
  intros Hs Hb. unfold addat. apply bytes_app. split; [now apply bytes_firstn|].
  apply bytes_xorp; auto. now apply bytes_skipn.
Qed.

Lemma addat_0 s bs : addat s 0 bs = xorp s bs.
Proof. reflexivity. Qed.

Lemma addat_nil s off : addat s off [] = s.
Proof. unfold addat. replace (xorp (skipn off s) []) with (skipn off s); [apply firstn_skipn|]. now destruct (skipn off s). Qed.

Lemma upd_nth_twice {A} (l : list A) b x y : upd_nth (upd_nth l b x) b y = upd_nth l b y.
Proof. revert b; induction l as [|h t IH]; intros [|b]; simpl; auto. now rewrite IH. Qed.

Lemma upd_nth_map {A B} (f : A -> B) l i x : upd_nth (map f l) i (f x) = map f (upd_nth l i x).
Proof. revert i; induction l as [|h t IH]; intros [|i]; simpl; auto. now rewrite IH. Qed.

Lemma upd_nth_same {A} (l : list A) i d : upd_nth l i (nth i l d) = l.
Proof. revert i; induction l as [|h t IH]; intros [|i]; simpl; auto. now rewrite IH. Qed.

Lemma addat_snoc s off bs v k : k = (off + length bs)%nat -> (k < length s)%nat ->
  upd_nth (addat s off bs) k (N.lxor (nth k s 0) v) = addat s off (bs ++ [v]).
Proof.
  intros Hk Hl. apply (nth_ext_le _ _ 0).
  - now rewrite upd_nth_length, !addat_length.
  - intros i _. rewrite nth_upd_nth, !nth_addat, addat_length.
    destruct (Nat.eqb_spec i k) as [->|Hi].
    + replace (k <? length s)%nat with true by lia. replace (off <=? k)%nat with true by lia.
      rewrite app_nth2 by lia. replace (k - off - length bs)%nat with O by lia. reflexivity.
    + destruct (Nat.ltb_spec i (length s)); auto. f_equal. destruct (Nat.leb_spec off i); auto.
      destruct (Nat.ltb_spec (i - off) (length bs)).
      * now rewrite app_nth1.
      * rewrite !nth_overflow; auto; rewrite ?app_length; simpl; lia.
Qed.

Lemma blk_set m b x : (b < length m)%nat -> blk (upd_nth m b x) b = x.
Proof. intros H. rewrite blk_upd, Nat.eqb_refl. destruct (Nat.ltb_spec b (length m)); auto; lia. Qed.

Lemma blk_lt m b n : length (blk m b) = S n -> (b < length m)%nat.
Proof. intros H. apply blk_nonempty. intros E. rewrite E in H. discriminate. Qed.

Lemma wr1_blk m b s o v : blk m b = map Some s -> o < N.of_nat (length s) ->
  wr1 m (P b o) v = Some (upd_nth m b (map Some (upd_nth s (N.to_nat o) v))).
Proof.
  intros H Ho. unfold wr1, inside. cbn [pb po]. rewrite H, map_length.
  replace (o <? N.of_nat (length s)) with true by lia. now rewrite upd_nth_map.
Qed.

Lemma rd1_upd_other m b x p : pb p <> b -> rd1 (upd_nth m b x) p = rd1 m p.
Proof.
  intros H. rewrite !rd1_cell. unfold cellp. rewrite blk_upd. destruct (Nat.eqb_spec (pb p) b); auto. congruence.
Qed.

Lemma u32_small x : x < 2 ^ 32 -> u32 x = x.
Proof. intros. unfold u32. now apply N.mod_small. Qed.
Lemma u64_small x : x < 2 ^ 64 -> u64 x = x.
Proof. intros. unfold u64. now apply N.mod_small. Qed.

Lemma runs_asserts cf sz off n m : (sz <= 50)%nat -> (off < sz)%nat -> (off + n <= sz)%nat ->
  runs (lib_asserts cf (N.of_nat sz) (N.of_nat off) (N.of_nat n)) m tt m.
Proof.
  intros Hsz Ho Hn. unfold lib_asserts. eapply runs_bind; apply runs_assert.
  - lia.
  - rewrite u32_small; lia.
Qed.

Lemma runs_AddBytes cf sz m b s d bs off :
  (sz <= 50)%nat -> blk m b = map Some s -> length s = sz -> pb d <> b -> has m d bs ->
  (off < sz)%nat -> (off + length bs <= sz)%nat ->
  runs (lib_AddBytes cf (N.of_nat sz) (P b 0) d (N.of_nat off) (N.of_nat (length bs))) m tt
       (upd_nth m b (map Some (addat s off bs))).
Proof.
  intros Hsz Hb Hs Hd Hbs Ho Hn. unfold lib_AddBytes.
  eapply runs_bind; [apply runs_asserts; auto|].
  assert (Hbm : (b < length m)%nat).
  { apply blk_nonempty. rewrite Hb. destruct s; simpl in *; [lia|discriminate]. }
  apply (runs_for (fun _ => tt) (fun k => upd_nth m b (map Some (addat s off (firstn k bs))))); auto.
  - rewrite Nat2N.id. intros k Hk.
    assert (Hu : u32 (N.of_nat off + N.of_nat k) = N.of_nat (off + k)) by (rewrite u32_small; lia).
    rewrite Hu. unfold padd at 1. cbn [pb po]. rewrite N.add_0_l.
    assert (Hlen : length (addat s off (firstn k bs)) = sz) by now rewrite addat_length.
    eapply runs_bind; [apply runs_load, (rd1_blk _ _ (addat s off (firstn k bs)))|].
    + now apply blk_set.
    + lia.
    + eapply runs_bind; [apply runs_load; rewrite rd1_upd_other by auto; now apply Hbs|].
      eapply runs_eq; [apply runs_store, (wr1_blk _ _ (addat s off (firstn k bs)))| |]; auto.
      * now apply blk_set.
      * unfold padd; cbn; lia.
      * rewrite upd_nth_twice. do 2 f_equal. unfold padd. cbn [po pb]. rewrite N.add_0_l, !Nat2N.id.
        rewrite (firstn_snoc bs k 0) by auto. rewrite <- addat_snoc with (k := (off + k)%nat); [|rewrite firstn_length; lia|lia].
        f_equal. f_equal. rewrite nth_addat. replace (off + k <? length s)%nat with true by lia.
        replace (off <=? off + k)%nat with true by lia. rewrite (nth_overflow (firstn k bs)); [now rewrite N.lxor_0_r|].
        rewrite firstn_length. lia.
  - cbn [firstn]. rewrite addat_nil, <- Hb. apply upd_nth_same.
  - now rewrite Nat2N.id, firstn_all.
Qed.

Lemma runs_Initialize sz m b : length (blk m b) = sz ->
  runs (lib_Initialize (N.of_nat sz) (P b 0)) m tt (upd_nth m b (map Some (repeat 0 sz))).
Proof.
  intros H. eapply runs_eq; [apply runs_memset| |]; auto.
  - apply room_of_le. cbn. lia.
  - unfold putp, put. cbn [pb po]. f_equal. apply splice_all. now rewrite map_length, repeat_length.
Qed.

Lemma has_set_other m b x d bs : pb d <> b -> has m d bs -> has (upd_nth m b x) d bs.
Proof. intros H1 H2. now apply has_other. Qed.

Lemma room_block m b o n : (o + n <= length (blk m b))%nat -> room m (P b (N.of_nat o)) n.
Proof. intros H. apply room_of_le. cbn. lia. Qed.

Lemma runs_Ascon_Overwrite cf m b d bs off : length (blk m b) = 40%nat -> pb d <> b -> has m d bs ->
  (off < 40)%nat -> (off + length bs <= 40)%nat ->
  runs (Ascon_OverwriteBytes cf (P b 0) d (N.of_nat off) (N.of_nat (length bs))) m tt
       (putp m (P b (N.of_nat off)) bs).
Proof.
  intros Hb Hd Hbs Ho Hn. unfold Ascon_OverwriteBytes.
  eapply runs_bind; [apply (runs_asserts cf 40); auto; lia|].
  assert (Hr : room m (P b (N.of_nat off)) (length bs)) by (apply room_block; lia).
  apply (runs_for (fun _ => tt) (fun k => putp m (P b (N.of_nat off)) (firstn k bs))); auto.
  - rewrite Nat2N.id. intros k Hk.
    assert (Hrk : room m (P b (N.of_nat off)) (length (firstn k bs))).
    { intros i Hi. apply Hr. rewrite firstn_length in Hi. lia. }
    assert (Hu : u32 (N.of_nat off + N.of_nat k) = N.of_nat (off + k)) by (rewrite u32_small; lia).
    rewrite Hu. eapply runs_bind.
    + apply runs_load. rewrite rd1_putp by auto. rewrite within_false_lt; [now apply Hbs|].
      left. unfold padd. cbn. auto.
    + replace (padd (P b 0) (N.of_nat (off + k))) with (padd (P b (N.of_nat off)) (N.of_nat k))
        by (unfold padd; cbn [pb po]; f_equal; lia).
      eapply runs_eq; [apply runs_store1; rewrite inside_putp by auto; now apply Hr| |]; auto.
      rewrite (firstn_snoc bs k 0) by auto.
      rewrite <- putp_app_bytes.
      * rewrite firstn_length. now replace (Nat.min k (length bs)) with k by lia.
      * intros i Hi. apply Hr. rewrite app_length, firstn_length in Hi. simpl in Hi. lia.
  - now rewrite putp_nil.
  - now rewrite Nat2N.id, firstn_all.
Qed.

Lemma runs_Keccak_Overwrite cf m b d bs off : length (blk m b) = 50%nat -> pb d <> b -> has m d bs ->
  (off < 50)%nat -> (off + length bs <= 50)%nat ->
  runs (KeccakP400_OverwriteBytes cf (P b 0) d (N.of_nat off) (N.of_nat (length bs))) m tt
       (putp m (P b (N.of_nat off)) bs).
Proof.
  intros Hb Hd Hbs Ho Hn. unfold KeccakP400_OverwriteBytes.
  eapply runs_bind; [apply (runs_asserts cf 50); auto; lia|].
  unfold padd. cbn [pb po]. rewrite N.add_0_l.
  apply runs_memcpy; auto.
  - apply room_block. lia.
  - apply overlap_diff. cbn. auto.
Qed.

Lemma runs_Extract cf sz m b s d off n : (sz <= 50)%nat -> blk m b = map Some s -> length s = sz ->
  pb d <> b -> room m d n -> (off < sz)%nat -> (off + n <= sz)%nat ->
  runs (lib_ExtractBytes cf (N.of_nat sz) (P b 0) d (N.of_nat off) (N.of_nat n)) m tt
       (putp m d (firstn n (skipn off s))).
Proof.
  intros Hsz Hb Hs Hd Hr Ho Hn. unfold lib_ExtractBytes.
  eapply runs_bind; [apply runs_asserts; auto|].
  unfold padd. cbn [pb po]. rewrite N.add_0_l.
  assert (Hl : length (firstn n (skipn off s)) = n) by (rewrite firstn_length, skipn_length; lia).
  apply runs_memcpy.
  - now rewrite Hl.
  - apply has_blk; auto. lia.
  - now rewrite Hl.
  - apply overlap_diff. cbn. auto.
Qed.

(* ---------- Ascon permutation in memory ---------- *)

Lemma lor_shift_acc W b k : b < 256 ->
  N.lor (N.shiftl W (k + 8)) (N.shiftl b k) = N.shiftl (256 * W + b) k.
Proof.
  intros Hb. replace (256 * W + b) with (N.lor (N.shiftl W 8) b).
  - rewrite N.shiftl_lor. f_equal. rewrite N.shiftl_shiftl. f_equal. lia.
  - assert (E : N.land b (N.shiftl W 8) = 0).
    { apply bits_inj_iff'. intros j. rewrite N.land_spec, N.bits_0, tb_shiftl.
      destruct (N.leb_spec 8 j); cbn [andb].
      - now rewrite (tb_high b 8).
      - apply andb_false_r. }
    replace (256 * W + b) with (b + N.shiftl W 8) by (rewrite N.shiftl_mul_pow2; change (2 ^ 8) with 256; lia).
    rewrite N.add_nocarry_lxor by exact E.
    apply bits_inj_iff'. intros j. apply (f_equal (fun v => N.testbit v j)) in E.
    rewrite N.land_spec, N.bits_0 in E. rewrite N.lor_spec, N.lxor_spec.
    destruct (N.testbit b j), (N.testbit (N.shiftl W 8) j); auto; discriminate.
Qed.

Lemma runs_load64 m p bs : has m p bs -> length bs = 8%nat -> bytes bs -> runs (load64 p) m (be_word bs) m.
Proof.
  intros H Hl Hb. unfold load64.
  apply (runs_for (fun k => N.shiftl (be_word (firstn k bs)) (64 - 8 * N.of_nat k)) (fun _ => m)); auto.
  - intros k Hk. eapply runs_bind; [apply runs_load, H; lia|].
    eapply runs_eq; [apply runs_ret| |]; auto.
    rewrite (firstn_snoc bs k 0), be_word_snoc by lia.
    replace (64 - 8 * N.of_nat k) with (64 - 8 * N.of_nat (S k) + 8) by lia.
    replace (56 - N.of_nat k * 8) with (64 - 8 * N.of_nat (S k)) by lia.
    apply lor_shift_acc. now apply bytes_nth.
  - change (N.to_nat 8) with 8%nat. rewrite <- Hl, firstn_all, Hl. apply N.shiftl_0_r.
Qed.

Lemma runs_store64 m p x : room m p 8 -> runs (store64 p x) m tt (putp m p (word_be 8 x)).
Proof.
  intros Hr. unfold store64. pose proof (word_be_length 8 x) as Hl.
  apply (runs_for (fun _ => tt) (fun k => putp m p (firstn k (word_be 8 x)))); auto.
  - change (N.to_nat 8) with 8%nat. intros k Hk.
    assert (Hrk : room m p (length (firstn k (word_be 8 x)))).
    { intros i Hi. apply Hr. rewrite firstn_length in Hi. lia. }
    eapply runs_eq; [apply runs_store1; rewrite inside_putp by auto; now apply Hr| |]; auto.
    rewrite (firstn_snoc _ k 0) by lia. rewrite <- putp_app_bytes.
    + rewrite firstn_length, Hl. replace (Nat.min k 8) with k by lia. do 2 f_equal.
      rewrite nth_word_be by lia. unfold byte_at, u8. change 255 with (N.ones 8). rewrite N.land_ones.
      f_equal. f_equal. lia.
    + intros i Hi. apply Hr. rewrite app_length, firstn_length in Hi. simpl length in Hi. lia.
  - apply putp_nil.
Qed.

Lemma chunks8_40 (s : list N) : length s = 40%nat ->
  chunks 8 s = [firstn 8 (skipn 0 s); firstn 8 (skipn 8 s); firstn 8 (skipn 16 s); firstn 8 (skipn 24 s); firstn 8 (skipn 32 s)].
Proof.
  intros H. do 40 (destruct s as [|? s]; [discriminate|]). destruct s; [|discriminate]. reflexivity.
Qed.

Lemma putp_seq m b o a c : (o + length a + length c <= length (blk m b))%nat ->
  putp (putp m (P b (N.of_nat o)) a) (P b (N.of_nat (o + length a))) c = putp m (P b (N.of_nat o)) (a ++ c).
Proof.
  intros H. rewrite <- putp_app_bytes.
  - f_equal. unfold padd. cbn [pb po]. f_equal. lia.
  - apply room_block. rewrite app_length. lia.
Qed.

Lemma blk_putp_len m p bs b : room m p (length bs) -> length (blk (putp m p bs) b) = length (blk m b).
Proof.
  intros H. pose proof (fun q => inside_putp m p bs q H) as Hi. unfold inside in Hi.
  destruct (Nat.lt_trichotomy (length (blk (putp m p bs) b)) (length (blk m b))) as [Hc|[Hc|Hc]]; auto.
  - specialize (Hi (P b (N.of_nat (length (blk (putp m p bs) b))))). cbn [pb po] in Hi. lia.
  - specialize (Hi (P b (N.of_nat (length (blk m b))))). cbn [pb po] in Hi. lia.
Qed.

Lemma runs_Ascon_Permute cf m b s r : (r <= 12)%nat -> blk m b = map Some s -> bytes s -> length s = 40%nat ->
  runs (Ascon_Permute_Nrounds cf (P b 0) (N.of_nat r)) m tt (upd_nth m b (map Some (ascon_p r s))).
Proof.
  intros Hr Hb Hs Hl. unfold Ascon_Permute_Nrounds.
  eapply runs_bind; [apply runs_assert; lia|].
  eapply runs_bind; [apply runs_emit|].
  assert (Hbl : length (blk m b) = 40%nat) by now rewrite Hb, map_length.
  assert (Hld : forall o, (o + 8 <= 40)%nat ->
    runs (load64 (padd (P b 0) (N.of_nat o))) m (be_word (firstn 8 (skipn o s))) m).
  { intros o Ho. apply runs_load64.
    - unfold padd. cbn [pb po]. rewrite N.add_0_l. apply has_blk; auto. lia.
    - rewrite firstn_length, skipn_length. lia.
    - now apply bytes_firstn, bytes_skipn. }
  eapply runs_bind; [apply (Hld 0%nat); lia|]. eapply runs_bind; [apply (Hld 8%nat); lia|].
  eapply runs_bind; [apply (Hld 16%nat); lia|]. eapply runs_bind; [apply (Hld 24%nat); lia|].
  eapply runs_bind; [apply (Hld 32%nat); lia|].
  set (ws := [be_word (firstn 8 (skipn 0 s)); be_word (firstn 8 (skipn 8 s)); be_word (firstn 8 (skipn 16 s));
              be_word (firstn 8 (skipn 24 s)); be_word (firstn 8 (skipn 32 s))]).
  assert (Ews : ws = map be_word (chunks 8 s)) by now rewrite chunks8_40.
  assert (Hws : words5 ws) by (rewrite Ews; now apply words5_chunks).
  cbv zeta. rewrite ascon_ref_words_spec by auto.
  destruct (ascon_p_bytes r s Hs Hl) as [_ Hpl].
  unfold ascon_p in *. rewrite <- Ews in *.
  pose proof (ascon_p_words_words r ws Hws) as Hw.
  destruct (words5_inv _ Hw) as (a & b' & c & d & e & E & _). rewrite E. cbn [nth].
  assert (Hst : forall o x mm, (o + 8 <= length (blk mm b))%nat ->
    runs (store64 (padd (P b 0) (N.of_nat o)) x) mm tt (putp mm (P b (N.of_nat o)) (word_be 8 x))).
  { intros o x mm Ho. unfold padd. cbn [pb po]. rewrite N.add_0_l. apply runs_store64.
    apply room_block. lia. }
  assert (Hln : forall o bs, (o + length bs <= 40)%nat -> length (blk (putp m (P b (N.of_nat o)) bs) b) = 40%nat).
  { intros o bs Ho. rewrite blk_putp_len; auto. apply room_block. lia. }
  eapply runs_bind; [apply (Hst 0%nat); lia|].
  eapply runs_bind; [apply (Hst 8%nat); rewrite Hln by (rewrite word_be_length; lia); lia|].
  replace (P b (N.of_nat 8)) with (P b (N.of_nat (0 + length (word_be 8 a)))) by now rewrite word_be_length.
  rewrite putp_seq by (rewrite !word_be_length; lia).
  eapply runs_bind; [apply (Hst 16%nat); rewrite Hln by (rewrite app_length, !word_be_length; lia); lia|].
  replace (P b (N.of_nat 16)) with (P b (N.of_nat (0 + length (word_be 8 a ++ word_be 8 b'))))
    by now rewrite app_length, !word_be_length.
  rewrite putp_seq by (rewrite app_length, !word_be_length; lia).
  eapply runs_bind; [apply (Hst 24%nat); rewrite Hln by (rewrite !app_length, !word_be_length; lia); lia|].
  replace (P b (N.of_nat 24)) with (P b (N.of_nat (0 + length ((word_be 8 a ++ word_be 8 b') ++ word_be 8 c))))
    by now rewrite !app_length, !word_be_length.
  rewrite putp_seq by (rewrite !app_length, !word_be_length; lia).
  eapply runs_eq; [apply (Hst 32%nat); rewrite Hln by (rewrite !app_length, !word_be_length; lia); lia| |]; auto.
  replace (P b (N.of_nat 32)) with (P b (N.of_nat (0 + length (((word_be 8 a ++ word_be 8 b') ++ word_be 8 c) ++ word_be 8 d))))
    by now rewrite !app_length, !word_be_length.
  rewrite putp_seq by (rewrite !app_length, !word_be_length; lia).
  unfold putp, put. cbn [pb po]. f_equal. cbn [map concat].
  rewrite splice_all.
  - rewrite app_nil_r, <- !app_assoc. reflexivity.
  - rewrite map_length, !app_length, !word_be_length. lia.
Qed.

(* ---------- Keccak permutation in memory ---------- *)

Definition even_ok (cf : cfg) (b : nat) : Prop := strict cf = true -> base cf b mod 2 = 0.

Lemma aligned2 cf b o : even_ok cf b -> aligned cf (P b (N.of_nat (2 * o))) 2 = true.
Proof.
  intros H. unfold aligned, even_ok in *. cbn [pb po]. destruct (strict cf); auto.
  cbn [negb orb]. specialize (H eq_refl). apply N.eqb_eq. lia.
Qed.

Lemma runs_load_lanes cf m b : even_ok cf b -> forall n o bs, length bs = (2 * n)%nat ->
  has m (P b (N.of_nat (2 * o))) bs ->
  runs (load_lanes cf n (P b (N.of_nat (2 * o)))) m (map le_word (chunks 2 bs)) m.
Proof.
  intros He. induction n as [|n IH]; intros o bs Hl H; cbn [load_lanes].
  - destruct bs; [apply runs_ret | simpl in Hl; lia].
  - destruct bs as [|x [|y bs]]; try (simpl in Hl; lia).
    eapply runs_bind.
    + apply (runs_loadn cf [x; y]).
      * intros i Hi. rewrite H by (simpl in *; lia). destruct i as [|[|i]]; auto. simpl in Hi; lia.
      * now apply aligned2.
    + eapply runs_bind; [|eapply runs_eq; [apply runs_ret| |reflexivity]].
      * replace (padd (P b (N.of_nat (2 * o))) 2) with (P b (N.of_nat (2 * S o))) by (unfold padd; cbn [pb po]; f_equal; lia).
        apply (IH (S o) bs).
        -- simpl in Hl. lia.
        -- intros i Hi. specialize (H (S (S i))). unfold padd in *. cbn [pb po] in *.
           replace (N.of_nat (2 * S o) + N.of_nat i) with (N.of_nat (2 * o) + N.of_nat (S (S i))) by lia.
           apply H. simpl. lia.
      * change (x :: y :: bs) with ([x; y] ++ bs). rewrite chunks_app by (auto; lia). reflexivity.
Qed.

Lemma runs_store_lanes cf b : even_ok cf b -> forall ws m o,
  (2 * o + 2 * length ws <= length (blk m b))%nat ->
  runs (store_lanes cf ws (P b (N.of_nat (2 * o)))) m tt
       (putp m (P b (N.of_nat (2 * o))) (concat (map (word_le 2) ws))).
Proof.
  intros He. induction ws as [|w ws IH]; intros m o H; cbn [store_lanes map concat].
  - rewrite putp_nil. apply runs_ret.
  - cbn [length] in H.
    assert (Hr : room m (P b (N.of_nat (2 * o))) 2) by (apply room_block; lia).
    eapply runs_bind.
    + apply runs_storen; rewrite word_le_length; auto. now apply aligned2.
    + replace (padd (P b (N.of_nat (2 * o))) 2) with (P b (N.of_nat (2 * S o))) by (unfold padd; cbn [pb po]; f_equal; lia).
      eapply runs_eq; [apply IH; rewrite blk_putp_len by (now rewrite word_le_length); lia| |]; auto.
      rewrite <- putp_app_bytes.
      * f_equal. unfold padd. rewrite word_le_length. cbn [pb po]. f_equal. lia.
      * apply room_block. rewrite app_length, word_le_length.
        rewrite (concat_length_const 2); [rewrite map_length; lia|].
        apply Forall_map, Forall_forall. intros. apply word_le_length.
Qed.

Lemma runs_Keccak_Permute cf m b s r : even_ok cf b -> (r <= 20)%nat ->
  blk m b = map Some s -> bytes s -> length s = 50%nat ->
  runs (KeccakP400_Permute_Nrounds cf (P b 0) (N.of_nat r)) m tt (upd_nth m b (map Some (keccak_p r s))).
Proof.
  intros He Hr Hb Hs Hl. unfold KeccakP400_Permute_Nrounds.
  eapply runs_bind; [apply runs_emit|].
  assert (Hbl : length (blk m b) = 50%nat) by now rewrite Hb, map_length.
  eapply runs_bind; [apply (runs_load_lanes cf m b He 25 0 s); [lia|now apply has_blk0]|].
  destruct (keccak_ref_words_spec r _ Hr (words25_chunks s Hs Hl)) as [[H25 _] _].
  eapply runs_eq; [apply (runs_store_lanes cf b He _ m 0); rewrite H25, Hbl; lia| |]; auto.
  rewrite keccak_ref_bytes by auto. unfold putp, put. cbn [pb po]. f_equal. apply splice_all.
  destruct (keccak_p_bytes r s Hr Hs Hl) as [_ Hp]. now rewrite map_length, Hp, Hbl.
Qed.

(* ---------- packaged laws ---------- *)

Record lib_ok (L : plib) (sz : nat) (perm : nat -> list N -> list N) (maxr : nat) (okb : nat -> Prop) : Prop := {
  lo_sz : (24 <= sz <= 50)%nat;
  lo_init : forall m b, length (blk m b) = sz ->
    runs (pl_init L (P b 0)) m tt (upd_nth m b (map Some (repeat 0 sz)));
  lo_add : forall m b s d bs off, blk m b = map Some s -> length s = sz -> pb d <> b -> has m d bs ->
    (off < sz)%nat -> (off + length bs <= sz)%nat ->
    runs (pl_add L (P b 0) d (N.of_nat off) (N.of_nat (length bs))) m tt (upd_nth m b (map Some (addat s off bs)));
  lo_over : forall m b d bs off s, length (blk m b) = sz -> pb d <> b -> has m d bs ->
    (off < sz)%nat -> (off + length bs <= sz)%nat -> splice (blk m b) off (map Some bs) = map Some s ->
    runs (pl_over L (P b 0) d (N.of_nat off) (N.of_nat (length bs))) m tt (putp m (P b (N.of_nat off)) bs);
  lo_perm : forall m b s r, okb b -> (r <= maxr)%nat -> blk m b = map Some s -> bytes s -> length s = sz ->
    runs (pl_perm L (P b 0) (N.of_nat r)) m tt (upd_nth m b (map Some (perm r s)));
  lo_extract : forall m b s d off n, blk m b = map Some s -> length s = sz -> pb d <> b -> room m d n ->
    (off < sz)%nat -> (off + n <= sz)%nat ->
    runs (pl_extract L (P b 0) d (N.of_nat off) (N.of_nat n)) m tt (putp m d (firstn n (skipn off s)));
  lo_wf : forall r s, (r <= maxr)%nat -> bytes s -> length s = sz -> bytes (perm r s) /\ length (perm r s) = sz }.

Lemma ascon_lib_ok cf : lib_ok (ascon_lib cf) 40 ascon_p 12 (fun _ => True).
Proof.
  constructor.
  - lia.
  - intros. now apply (runs_Initialize 40).
  - intros. apply (runs_AddBytes cf 40); auto. lia.
  - intros. now apply runs_Ascon_Overwrite.
  - intros. now apply runs_Ascon_Permute.
  - intros. apply (runs_Extract cf 40); auto. lia.
  - intros. now apply ascon_p_bytes.
Qed.

Lemma keccak_lib_ok cf : lib_ok (keccak_lib cf) 50 keccak_p 20 (even_ok cf).
Proof.
  constructor.
  - lia.
  - intros. now apply (runs_Initialize 50).
  - intros. apply (runs_AddBytes cf 50); auto.
  - intros. now apply runs_Keccak_Overwrite.
  - intros. now apply runs_Keccak_Permute.
  - intros. apply (runs_Extract cf 50); auto.
  - intros. now apply keccak_p_bytes.
Qed.
