(* The state access functions of the two reference permutation libraries: effect, abort and wrap-around cases. Proofs only. *)
From Verif Require Import Base Prog SpecPerm Words AsconProof KeccakProof Bij Mem Vocab MemProof RefLib RefIsap Sponge ShortCt.
From Verif Require Spec.
Import Spec(xorp).
Open Scope N_scope.
Open Scope cm_scope.

Lemma blk_upd_other (m : mem) b x b' : b' <> b -> blk (upd_nth m b x) b' = blk m b'.
Proof. intros H. rewrite blk_upd. destruct (Nat.eqb_spec b' b); congruence. Qed.

Lemma addat_changed s off bs : (off + length bs <= length s)%nat ->
  changed s (addat s off bs) off (length bs) (fun i => N.lxor (nth i s 0) (nth (i - off) bs 0)).
Proof.
  intros H. split; [apply addat_length|]. intros i. rewrite nth_addat.
  destruct (Nat.ltb_spec i (length s)) as [Hi|Hi].
  - destruct (Nat.leb_spec off i) as [Ho|Ho]; cbn [andb]; [|now rewrite N.lxor_0_r].
    destruct (Nat.ltb_spec i (off + length bs)) as [Hb|Hb]; auto.
    rewrite (nth_overflow bs) by lia. now rewrite N.lxor_0_r.
  - replace ((off <=? i)%nat && (i <? off + length bs)%nat) with false by lia. symmetry. now apply nth_overflow.
Qed.

Lemma splice_changed s off bs : (off + length bs <= length s)%nat ->
  changed s (splice s off bs) off (length bs) (fun i => nth (i - off) bs 0).
Proof.
  intros H. unfold splice. split.
  - rewrite !app_length, firstn_length, skipn_length. lia.
  - intros i. destruct (Nat.leb_spec off i) as [Ho|Ho]; cbn [andb].
    + rewrite app_nth2; rewrite firstn_length; [|lia]. replace (Nat.min off (length s)) with off by lia.
      destruct (Nat.ltb_spec i (off + length bs)) as [Hb|Hb].
      * apply app_nth1. lia.
      * rewrite app_nth2 by lia. rewrite nth_skipn_add. f_equal. lia.
    + rewrite app_nth1 by (rewrite firstn_length; lia). apply nth_firstn_lt; lia.
Qed.

Lemma splice_map (s : list N) off bs : splice (map Some s) off (map Some bs) = map Some (splice s off bs).
Proof. unfold splice. now rewrite !map_app, firstn_map, skipn_map, map_length. Qed.

Lemma putp_state m b s off bs : blk m b = map Some s -> (b < length m)%nat ->
  putp m (P b (N.of_nat off)) bs = upd_nth m b (map Some (splice s off bs)).
Proof. intros H Hb. unfold putp, put. cbn [pb po]. now rewrite H, Nat2N.id, splice_map. Qed.

Lemma state_lt (m : mem) b (s : list N) sz : blk m b = map Some s -> length s = sz -> (0 < sz)%nat -> (b < length m)%nat.
Proof. intros H L Hz. apply (blk_lt _ _ (sz - 1)). rewrite H, map_length. lia. Qed.

Lemma effect_upd f m b s s' off n g : (b < length m)%nat -> runs f m tt (upd_nth m b (map Some s')) ->
  changed s s' off n g -> effect f m b s off n g.
Proof.
  intros Hb H C. exists (upd_nth m b (map Some s')), s'. split; [exact H|]. split; [apply upd_nth_length|].
  split; [now apply blk_set|]. split; [exact C|]. intros. now apply blk_upd_other.
Qed.

Section Sz.
  Variables (cf : cfg) (sz : nat) (m : mem) (b : nat) (s : list N).
  Hypotheses (Hsz : (0 < sz <= 50)%nat) (Hb : blk m b = map Some s) (Hs : length s = sz).

  Lemma add_effect d bs off : pb d <> b -> has m d bs -> (off < sz)%nat -> (off + length bs <= sz)%nat ->
    effect (lib_AddBytes cf (N.of_nat sz) (P b 0) d (N.of_nat off) (N.of_nat (length bs))) m b s off (length bs)
           (fun i => N.lxor (nth i s 0) (nth (i - off) bs 0)).
  Proof.
    intros Hd Hbs Ho Hn. apply (effect_upd _ m b s (addat s off bs)).
    - apply (state_lt m b s sz); auto; lia.
    - apply runs_AddBytes; auto; lia.
    - apply addat_changed. lia.
  Qed.

  Lemma extract_effect d off n : pb d <> b -> room m d n -> (off < sz)%nat -> (off + n <= sz)%nat ->
    runs (lib_ExtractBytes cf (N.of_nat sz) (P b 0) d (N.of_nat off) (N.of_nat n)) m tt (putp m d (firstn n (skipn off s))).
  Proof. intros. apply runs_Extract; auto; lia. Qed.
End Sz.

Lemma ascon_over_effect cf m b s d bs off : blk m b = map Some s -> length s = 40%nat -> pb d <> b -> has m d bs ->
  (off < 40)%nat -> (off + length bs <= 40)%nat ->
  effect (Ascon_OverwriteBytes cf (P b 0) d (N.of_nat off) (N.of_nat (length bs))) m b s off (length bs)
         (fun i => nth (i - off) bs 0).
Proof.
  intros Hb Hs Hd Hbs Ho Hn. assert (Hl : (b < length m)%nat) by (apply (state_lt m b s 40); auto; lia).
  eapply effect_upd; [exact Hl| |apply splice_changed; lia].
  rewrite <- putp_state by auto. apply runs_Ascon_Overwrite; auto. now rewrite Hb, map_length.
Qed.

Lemma keccak_over_effect cf m b s d bs off : blk m b = map Some s -> length s = 50%nat -> pb d <> b -> has m d bs ->
  (off < 50)%nat -> (off + length bs <= 50)%nat ->
  effect (KeccakP400_OverwriteBytes cf (P b 0) d (N.of_nat off) (N.of_nat (length bs))) m b s off (length bs)
         (fun i => nth (i - off) bs 0).
Proof.
  intros Hb Hs Hd Hbs Ho Hn. assert (Hl : (b < length m)%nat) by (apply (state_lt m b s 50); auto; lia).
  eapply effect_upd; [exact Hl| |apply splice_changed; lia].
  rewrite <- putp_state by auto. apply runs_Keccak_Overwrite; auto. now rewrite Hb, map_length.
Qed.

Lemma add_byte_effect cf m b s v off : blk m b = map Some s -> length s = 50%nat -> (off < 50)%nat ->
  effect (KeccakP400_AddByte cf (P b 0) v (N.of_nat off)) m b s off 1 (fun i => N.lxor (nth i s 0) v).
Proof.
  intros Hb Hs Ho. assert (Hl : (b < length m)%nat) by (apply (state_lt m b s 50); auto; lia).
  assert (E : rd1 m (padd (P b 0) (N.of_nat off)) = Some (nth off s 0)).
  { apply has_blk0; auto. lia. }
  eapply (effect_upd _ m b s (splice s off [N.lxor (nth off s 0) v])); [exact Hl| |].
  - unfold KeccakP400_AddByte. eapply runs_bind; [apply runs_assert; lia|].
    eapply runs_bind; [apply runs_load, E|].
    rewrite <- putp_state by auto. apply runs_store1. unfold inside, padd. cbn [pb po]. rewrite Hb, map_length. lia.
  - destruct (splice_changed s off [N.lxor (nth off s 0) v]) as [L C]; [cbn [length]; lia|].
    split; auto. intros i. rewrite C. cbn [length].
    destruct ((off <=? i)%nat && (i <? off + 1)%nat) eqn:Hi; auto. replace i with off by lia. now rewrite Nat.sub_diag.
Qed.

Lemma zeroes_effect cf m b s n : blk m b = map Some s -> length s = 50%nat -> (n <= 50)%nat ->
  effect (KeccakP400_OverwriteWithZeroes cf (P b 0) (N.of_nat n)) m b s 0 n (fun _ => 0).
Proof.
  intros Hb Hs Hn. assert (Hl : (b < length m)%nat) by (apply (state_lt m b s 50); auto; lia).
  eapply (effect_upd _ m b s (splice s 0 (repeat 0 n))); [exact Hl| |].
  - unfold KeccakP400_OverwriteWithZeroes. eapply runs_bind; [apply runs_assert; lia|].
    rewrite <- putp_state by auto. change (N.of_nat 0) with 0. apply runs_memset. apply room_of_le. cbn [pb po].
    rewrite Hb, map_length. lia.
  - destruct (splice_changed s 0 (repeat 0 n)) as [L C]; [rewrite repeat_length; lia|]. rewrite repeat_length in C.
    split; auto. intros i. rewrite C. destruct (_ && _) eqn:Hi; auto. apply nth_repeat.
Qed.

Lemma extract_add_runs cf m b s inp out off bs : blk m b = map Some s -> length s = 50%nat -> (off < 50)%nat ->
  (off + length bs <= 50)%nat -> has m inp bs -> room m out (length bs) -> pb out <> b -> fwd_ok out inp (length bs) ->
  runs (KeccakP400_ExtractAndAddBytes cf (P b 0) inp out (N.of_nat off) (N.of_nat (length bs))) m tt
       (putp m out (Spec.xorz bs (skipn off s))).
Proof.
  intros Hb Hs Ho Hn Hi Hr Hd Hf. unfold KeccakP400_ExtractAndAddBytes.
  eapply runs_bind; [apply (runs_asserts cf 50); auto|].
  set (o := Spec.xorz bs (skipn off s)).
  assert (Lo : length o = length bs).
  { unfold o. apply xorz_length. rewrite skipn_length. lia. }
  apply (runs_for (fun _ => tt) (fun k => putp m out (firstn k o))); auto.
  - rewrite Nat2N.id. intros k Hk.
    assert (Hrk : room m out (length (firstn k o))) by (rewrite firstn_length; intros i Hi'; apply Hr; lia).
    eapply runs_bind.
    { apply runs_load. rewrite rd1_putp by exact Hrk. rewrite firstn_length.
      destruct (within _ _ _) eqn:W; [|now apply Hi].
      exfalso. unfold within, padd in W. cbn [pb po] in W.
      apply (Hf (N.to_nat (po inp + N.of_nat k - po out)) k); [lia|]. unfold padd. f_equal; lia. }
    eapply runs_bind.
    { apply runs_load. rewrite rd1_putp by exact Hrk. rewrite u32_small by lia.
      destruct (within _ _ _) eqn:W; [unfold within, padd in W; cbn [pb po] in W; exfalso; lia|].
      replace (N.of_nat off + N.of_nat k) with (N.of_nat (off + k)) by lia. apply (has_blk0 m b s Hb). lia. }
    eapply runs_eq; [apply runs_store1; rewrite inside_putp by auto; now apply Hr| |]; auto.
    rewrite (firstn_snoc o k 0) by lia.
    replace (nth k o 0) with (N.lxor (nth k bs 0) (nth (off + k) s 0)).
    2:{ unfold o. rewrite xorz_nth by (rewrite skipn_length; lia). rewrite nth_skipn_add. now replace (k <? length bs)%nat with true by lia. }
    rewrite <- putp_app_bytes.
    + f_equal. rewrite firstn_length. f_equal. lia.
    + intros i Hi'. apply Hr. rewrite app_length, firstn_length in Hi'. cbn [length] in Hi'. lia.
  - now rewrite firstn_O, putp_nil.
  - rewrite Nat2N.id, firstn_all2 by lia. reflexivity.
Qed.

(* ---------- calls caught by the assertions ---------- *)

Lemma asserts_abort cf sz off n : ndebug cf = false -> off + n < 2 ^ 32 -> sz <= off \/ sz < off + n ->
  forall t, lib_asserts cf sz off n t = Abort.
Proof.
  intros Hd Hw H t. unfold lib_asserts, assert_, bind. rewrite Hd.
  destruct (N.ltb_spec off sz) as [H1|H1]; [|reflexivity]. cbn [ret].
  rewrite u32_small by auto. replace (off + n <=? sz) with false by lia. reflexivity.
Qed.

Lemma abort_bind {A B} (f : M A) (g : A -> M B) t : f t = Abort -> bind f g t = Abort.
Proof. unfold bind. now intros ->. Qed.

(* ---------- calls not caught because offset + length wraps ---------- *)

Lemma ubs_store p v m : inside m p = false -> ubs (store p v) m.
Proof. intros H t. unfold store, bind, emit, store_, wr1. cbn [smem]. now rewrite H. Qed.

Lemma rd1_end m b (s : list N) o : blk m b = map Some s -> N.of_nat (length s) <= o -> rd1 m (P b o) = None.
Proof. intros H Ho. unfold rd1, inside. cbn [pb po]. rewrite H, map_length. now replace (o <? N.of_nat (length s)) with false by lia. Qed.

Lemma ubs_loads m p bs n : has m p bs -> (length bs < n)%nat -> rd1 m (padd p (N.of_nat (length bs))) = None -> ubs (loads_ n p) m.
Proof.
  revert p n; induction bs as [|v bs IH]; intros p n H Hn He; destruct n as [|n]; cbn [length] in *; try lia; cbn [loads_].
  - apply ubs_bind1. intros t. unfold load_. cbn [smem]. replace (padd p (N.of_nat 0)) with p in He by (unfold padd; destruct p; cbn; f_equal; lia).
    now rewrite He.
  - eapply ubs_bind2.
    { apply runs_load_. specialize (H 0%nat ltac:(cbn [length]; lia)). unfold padd in H. rewrite N.add_0_r in H. destruct p. exact H. }
    apply ubs_bind1. apply IH; try lia.
    + intros i Hi. rewrite padd_padd. replace (1 + N.of_nat i) with (N.of_nat (S i)) by lia. apply (H (S i)). cbn [length]. lia.
    + rewrite padd_padd. now replace (1 + N.of_nat (length bs)) with (N.of_nat (S (length bs))) by lia.
Qed.

Lemma ubs_memcpy dst src n m bs : has m src bs -> N.of_nat (length bs) < n -> rd1 m (padd src (N.of_nat (length bs))) = None ->
  ubs (memcpy dst src n) m.
Proof.
  intros H Hn He. unfold memcpy. destruct (overlap dst src n); [intros t; reflexivity|].
  eapply ubs_bind2; [apply runs_emit|]. eapply ubs_bind2; [apply runs_emit|].
  apply ubs_bind1. apply (ubs_loads m src bs); auto. lia.
Qed.

Lemma asserts_pass cf sz off n m : off < sz -> (off + n) mod 2 ^ 32 <= sz -> runs (lib_asserts cf sz off n) m tt m.
Proof. intros H1 H2. unfold lib_asserts, u32. eapply runs_bind; apply runs_assert; lia. Qed.

Lemma ubs_for {A} (I : nat -> A) (mm : nat -> mem) j n body a0 m0 : I O = a0 -> mm O = m0 ->
  N.of_nat j < n ->
  (forall k, (k < j)%nat -> runs (body (N.of_nat k) (I k)) (mm k) (I (S k)) (mm (S k))) ->
  ubs (body (N.of_nat j) (I j)) (mm j) -> ubs (for_ 0 n body a0) m0.
Proof.
  intros <- <- Hj Hr Hu. unfold for_. rewrite N.sub_0_r. apply (ubs_for_nat I mm j); [lia| |]; auto.
Qed.

Section Wrap.
  Variables (cf : cfg) (sz : nat) (m : mem) (b d : nat) (s x : list N) (off : nat) (n : N).
  Hypotheses (Hsz : (0 < sz <= 50)%nat) (Hb : blk m b = map Some s) (Hs : length s = sz)
             (Hd : blk m d = map Some x) (Hx : length x = sz) (Hne : b <> d)
             (Ho : (0 < off < sz)%nat) (Hn : N.of_nat off + n > N.of_nat sz) (Hw : (N.of_nat off + n) mod 2 ^ 32 <= N.of_nat sz).

  Lemma wrap_add : ubs (lib_AddBytes cf (N.of_nat sz) (P b 0) (P d 0) (N.of_nat off) n) m.
  Proof.
    unfold lib_AddBytes. eapply ubs_bind2; [apply asserts_pass; auto; lia|].
    assert (Hl : (b < length m)%nat) by (apply (state_lt m b s sz); auto; lia).
    apply (ubs_for (fun _ => tt) (fun k => upd_nth m b (map Some (addat s off (firstn k x)))) (sz - off)); auto.
    - rewrite firstn_O, addat_nil. rewrite <- Hb. apply upd_nth_same.
    - lia.
    - intros k Hk. rewrite u32_small by lia.
      replace (N.of_nat off + N.of_nat k) with (N.of_nat (off + k)) by lia.
      assert (Lk : length (firstn k x) = k) by (rewrite firstn_length; lia).
      eapply runs_bind; [apply runs_load; apply has_blk0; [now apply blk_set|rewrite addat_length; lia]|].
      eapply runs_bind; [apply runs_load; apply has_blk0; [rewrite blk_upd_other by auto; exact Hd|lia]|].
      unfold padd. cbn [pb po]. rewrite N.add_0_l.
      eapply runs_eq; [apply runs_store; apply wr1_blk; [now apply blk_set|rewrite addat_length; lia]| |]; auto.
      rewrite upd_nth_twice, Nat2N.id. f_equal. f_equal.
      replace (nth (off + k) (addat s off (firstn k x)) 0) with (nth (off + k) s 0).
      2:{ rewrite nth_addat. replace (off + k <? length s)%nat with true by lia. replace (off <=? off + k)%nat with true by lia.
          rewrite (nth_overflow (firstn k x)) by lia. now rewrite N.lxor_0_r. }
      rewrite (firstn_snoc x k 0) by lia. apply addat_snoc; lia.
    - rewrite u32_small by lia.
      apply ubs_bind1, ubs_load. apply (rd1_end _ b (addat s off (firstn (sz - off) x))); [now apply blk_set|].
      rewrite addat_length. lia.
  Qed.

  Lemma wrap_ascon_over : sz = 40%nat -> ubs (Ascon_OverwriteBytes cf (P b 0) (P d 0) (N.of_nat off) n) m.
  Proof.
    intros E40. unfold Ascon_OverwriteBytes. eapply ubs_bind2; [apply asserts_pass; try lia; rewrite E40 in *; exact Hw|].
    assert (Hl : (b < length m)%nat) by (apply (state_lt m b s sz); auto; lia).
    apply (ubs_for (fun _ => tt) (fun k => upd_nth m b (map Some (splice s off (firstn k x)))) (sz - off)); auto.
    - unfold splice. rewrite firstn_O. cbn [length app]. rewrite Nat.add_0_r, firstn_skipn, <- Hb. apply upd_nth_same.
    - lia.
    - intros k Hk. rewrite u32_small by lia.
      replace (N.of_nat off + N.of_nat k) with (N.of_nat (off + k)) by lia.
      assert (Lk : length (firstn k x) = k) by (rewrite firstn_length; lia).
      assert (Ls : length (splice s off (firstn k x)) = sz) by (rewrite (proj1 (splice_changed s off (firstn k x) ltac:(lia))); lia).
      eapply runs_bind; [apply runs_load; apply has_blk0; [rewrite blk_upd_other by auto; exact Hd|lia]|].
      unfold padd. cbn [pb po]. rewrite N.add_0_l.
      eapply runs_eq; [apply runs_store; apply wr1_blk; [now apply blk_set|lia]| |]; auto.
      rewrite upd_nth_twice, Nat2N.id. f_equal. f_equal.
      assert (LS : length (firstn (S k) x) = S k) by (rewrite firstn_length; lia).
      apply (nth_ext_le _ _ 0).
      + rewrite upd_nth_length, Ls. rewrite (proj1 (splice_changed s off (firstn (S k) x) ltac:(lia))). lia.
      + intros i _. rewrite nth_upd_nth, Ls.
        rewrite (proj2 (splice_changed s off (firstn k x) ltac:(lia))), (proj2 (splice_changed s off (firstn (S k) x) ltac:(lia))).
        rewrite LS, Lk. destruct (Nat.eqb_spec i (off + k)) as [->|Hi].
        * replace (off + k <? sz)%nat with true by lia.
          replace ((off <=? off + k)%nat && (off + k <? off + S k)%nat) with true by lia.
          rewrite nth_firstn_lt by lia. f_equal. lia.
        * destruct (off <=? i)%nat eqn:H1; cbn [andb]; auto.
          destruct (i <? off + k)%nat eqn:H2.
          -- replace (i <? off + S k)%nat with true by lia. now rewrite !nth_firstn_lt by lia.
          -- now replace (i <? off + S k)%nat with false by lia.
    - rewrite u32_small by lia.
      eapply ubs_bind2; [apply runs_load; apply has_blk0; [rewrite blk_upd_other by auto; exact Hd|lia]|].
      apply ubs_store. unfold inside, padd. cbn [pb po].
      rewrite blk_set by auto. rewrite map_length, (proj1 (splice_changed s off (firstn (sz - off) x) ltac:(rewrite firstn_length; lia))).
      lia.
  Qed.

  Lemma wrap_keccak_over : sz = 50%nat -> ubs (KeccakP400_OverwriteBytes cf (P b 0) (P d 0) (N.of_nat off) n) m.
  Proof.
    intros E. unfold KeccakP400_OverwriteBytes. eapply ubs_bind2; [apply asserts_pass; try lia; rewrite E in *; exact Hw|].
    apply (ubs_memcpy _ _ _ _ x); [now apply has_blk0| |].
    - assert (2 ^ 32 <= N.of_nat off + n); [|lia].
      destruct (N.ltb_spec (N.of_nat off + n) (2 ^ 32)) as [H|H]; auto. rewrite N.mod_small in Hw by auto. lia.
    - unfold padd. cbn [pb po]. apply (rd1_end _ _ x); auto. lia.
  Qed.

  Lemma wrap_extract : ubs (lib_ExtractBytes cf (N.of_nat sz) (P b 0) (P d 0) (N.of_nat off) n) m.
  Proof.
    unfold lib_ExtractBytes. eapply ubs_bind2; [apply asserts_pass; auto; lia|].
    unfold padd. cbn [pb po]. rewrite N.add_0_l.
    apply (ubs_memcpy _ _ _ _ (skipn off s)).
    - rewrite <- (firstn_all2 (n := sz - off) (skipn off s)) by (rewrite skipn_length; lia). apply has_blk; auto. lia.
    - rewrite skipn_length. lia.
    - unfold padd. cbn [pb po]. apply (rd1_end _ _ s); auto. rewrite skipn_length. lia.
  Qed.
End Wrap.

Lemma range_aborts cf t state data inp off n sz :
  ndebug cf = false -> off + n < 2 ^ 32 -> sz <= off \/ sz < off + n ->
  lib_AddBytes cf sz state data off n t = Abort /\
  lib_ExtractBytes cf sz state data off n t = Abort /\
  (sz = 40 -> Ascon_OverwriteBytes cf state data off n t = Abort) /\
  (sz = 50 -> KeccakP400_OverwriteBytes cf state data off n t = Abort) /\
  (sz = 50 -> KeccakP400_ExtractAndAddBytes cf state inp data off n t = Abort).
Proof.
  intros H1 H2 H3. pose proof (asserts_abort cf sz off n H1 H2 H3 t) as H.
  repeat split; try intros ->; now apply abort_bind.
Qed.

Definition wrap_mem : mem := [map Some (repeat 7 40); map Some (repeat 9 50); map Some (repeat 1 40); map Some (repeat 2 50)].

Lemma wrap_witness : exists cf m off n,
  ndebug cf = false /\ off < 2 ^ 32 /\ n < 2 ^ 32 /\ off + n > 50 /\
  blk m 0 = map Some (repeat 7 40) /\ blk m 1 = map Some (repeat 9 50) /\
  (forall t, lib_AddBytes cf 40 (P 0 0) (P 2 0) off n (St m t) = UB) /\
  (forall t, Ascon_OverwriteBytes cf (P 0 0) (P 2 0) off n (St m t) = UB) /\
  (forall t, lib_ExtractBytes cf 40 (P 0 0) (P 2 0) off n (St m t) = UB) /\
  (forall t, lib_AddBytes cf 50 (P 1 0) (P 3 0) off n (St m t) = UB) /\
  (forall t, KeccakP400_OverwriteBytes cf (P 1 0) (P 3 0) off n (St m t) = UB) /\
  (forall t, lib_ExtractBytes cf 50 (P 1 0) (P 3 0) off n (St m t) = UB).
Proof.
  exists (Cfg false false (fun _ => 0)), wrap_mem, 1, (2 ^ 32 - 1).
  split; [reflexivity|]. split; [reflexivity|]. split; [reflexivity|]. split; [reflexivity|].
  split; [reflexivity|]. split; [reflexivity|].
  split; [|split; [|split; [|split; [|split]]]].
  - refine (wrap_add _ 40 wrap_mem 0 2 (repeat 7 40) (repeat 1 40) 1 (2 ^ 32 - 1) _ _ _ _ _ _ _ _ _); try reflexivity; try lia; discriminate.
  - refine (wrap_ascon_over _ 40 wrap_mem 0 2 (repeat 7 40) (repeat 1 40) 1 (2 ^ 32 - 1) _ _ _ _ _ _ _ _ _ _); try reflexivity; try lia; discriminate.
  - refine (wrap_extract _ 40 wrap_mem 0 2 (repeat 7 40) (repeat 1 40) 1 (2 ^ 32 - 1) _ _ _ _ _ _ _ _); try reflexivity; try lia; discriminate.
  - refine (wrap_add _ 50 wrap_mem 1 3 (repeat 9 50) (repeat 2 50) 1 (2 ^ 32 - 1) _ _ _ _ _ _ _ _ _); try reflexivity; try lia; discriminate.
  - refine (wrap_keccak_over _ 50 wrap_mem 1 3 (repeat 9 50) (repeat 2 50) 1 (2 ^ 32 - 1) _ _ _ _ _ _ _ _ _); try reflexivity; try lia; discriminate.
  - refine (wrap_extract _ 50 wrap_mem 1 3 (repeat 9 50) (repeat 2 50) 1 (2 ^ 32 - 1) _ _ _ _ _ _ _ _); try reflexivity; try lia; discriminate.
Qed.

(* ---------- the permutations as functions on states in memory ---------- *)

Lemma runs_same {A} (f : M A) m a b m1 m2 : runs f m a m1 -> runs f m b m2 -> m1 = m2.
Proof. intros H1 H2. destruct (H1 []) as [t1 E1]. destruct (H2 []) as [t2 E2]. rewrite E1 in E2. now injection E2. Qed.

Lemma map_Some_inj (a b : list N) : map Some a = map Some b -> a = b.
Proof. revert b; induction a as [|x a IH]; intros [|y b] H; try discriminate; auto. cbn [map] in H. injection H as -> H. f_equal. auto. Qed.

Lemma ascon_code_inj cf cf' m m' b b' s s' r m1 m1' :
  (r <= 12)%nat -> blk m b = map Some s -> bytes s -> length s = 40%nat ->
  blk m' b' = map Some s' -> bytes s' -> length s' = 40%nat ->
  runs (Ascon_Permute_Nrounds cf (P b 0) (N.of_nat r)) m tt m1 ->
  runs (Ascon_Permute_Nrounds cf' (P b' 0) (N.of_nat r)) m' tt m1' ->
  blk m1 b = blk m1' b' -> s = s'.
Proof.
  intros Hr H1 B1 L1 H2 B2 L2 R1 R2 E.
  rewrite (runs_same _ _ _ _ _ _ R1 (runs_Ascon_Permute cf m b s r Hr H1 B1 L1)) in E.
  rewrite (runs_same _ _ _ _ _ _ R2 (runs_Ascon_Permute cf' m' b' s' r Hr H2 B2 L2)) in E.
  rewrite !blk_set in E by (eapply state_lt; eauto; lia).
  apply map_Some_inj in E. now apply (ascon_p_inj r).
Qed.

Lemma keccak_code_inj cf cf' m m' b b' s s' r m1 m1' :
  even_ok cf b -> even_ok cf' b' ->
  (r <= 20)%nat -> blk m b = map Some s -> bytes s -> length s = 50%nat ->
  blk m' b' = map Some s' -> bytes s' -> length s' = 50%nat ->
  runs (KeccakP400_Permute_Nrounds cf (P b 0) (N.of_nat r)) m tt m1 ->
  runs (KeccakP400_Permute_Nrounds cf' (P b' 0) (N.of_nat r)) m' tt m1' ->
  blk m1 b = blk m1' b' -> s = s'.
Proof.
  intros K1 K2 Hr H1 B1 L1 H2 B2 L2 R1 R2 E.
  rewrite (runs_same _ _ _ _ _ _ R1 (runs_Keccak_Permute cf m b s r K1 Hr H1 B1 L1)) in E.
  rewrite (runs_same _ _ _ _ _ _ R2 (runs_Keccak_Permute cf' m' b' s' r K2 Hr H2 B2 L2)) in E.
  rewrite !blk_set in E by (eapply state_lt; eauto; lia).
  apply map_Some_inj in E. now apply (keccak_p_inj r).
Qed.

Lemma ascon_code_onto r t : (r <= 12)%nat -> bytes t -> length t = 40%nat ->
  exists s, bytes s /\ length s = 40%nat /\ forall cf m b, blk m b = map Some s ->
    runs (Ascon_Permute_Nrounds cf (P b 0) (N.of_nat r)) m tt (upd_nth m b (map Some t)).
Proof.
  intros Hr Ht Lt.
  destruct (inj_surj 40 (ascon_p r) (fun s => ascon_p_bytes r s) (fun s s' => ascon_p_inj r s s') t Ht Lt) as (s & Bs & Ls & E).
  exists s. repeat split; auto. intros cf m b Hb. rewrite <- E. now apply runs_Ascon_Permute.
Qed.

Lemma keccak_code_onto r t : (r <= 20)%nat -> bytes t -> length t = 50%nat ->
  exists s, bytes s /\ length s = 50%nat /\ forall cf m b, even_ok cf b -> blk m b = map Some s ->
    runs (KeccakP400_Permute_Nrounds cf (P b 0) (N.of_nat r)) m tt (upd_nth m b (map Some t)).
Proof.
  intros Hr Ht Lt.
  destruct (inj_surj 50 (keccak_p r) (fun s => keccak_p_bytes r s Hr) (fun s s' => keccak_p_inj r s s') t Ht Lt) as (s & Bs & Ls & E).
  exists s. repeat split; auto. intros cf m b He Hb. rewrite <- E. now apply runs_Keccak_Permute.
Qed.
