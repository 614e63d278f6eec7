(* isap_mac_enc of isapa128av20/avx_512 computes ciphertext and tag. Proofs only, apart from auxiliary notions. *)
From Verif Require Import Base Prog Poly SpecPerm Words AsconProof Mem Vocab Vocab2 MemProof RefLib Sponge RefProof RefAead SpecFacts.
From Verif Require Import Api ApiProof OptPerm OptRep OptPermProof OptIsap OptLanes OptProof A128Perm A128PermProof A128Proof AvxA AvxAProof.
From Verif Require Spec RefIsap.
Import Spec(xorp, xorz).
Open Scope N_scope.
Open Scope cm_scope.

Notation f := f_id.

(* ---------- the vector rounds ---------- *)

Lemma Forall_upd_nth {A} (Q : A -> Prop) l n x : Forall Q l -> Q x -> Forall Q (upd_nth l n x).
Proof.
  intros H Hx. revert n. induction H as [|y l Hy Hl IH]; intros n; [constructor|]. destruct n; cbn [upd_nth]; constructor; auto.
Qed.

Lemma Forall_firstn_ {A} (Q : A -> Prop) n l : Forall Q l -> Forall Q (firstn n l).
Proof. intros H. rewrite <- (firstn_skipn n l) in H. now apply Forall_app in H. Qed.

(* Two programs whose assignments agree on 64-bit values. *)
Definition st_eq (s s' : stmt) : Prop :=
  match s, s' with Asg x e, Asg y e' => x = y /\ forall r, Forall w64 r -> eval r e = eval r e' /\ w64 (eval r e') end.
Lemma run_eq p p' : Forall2 st_eq p p' -> forall r, Forall w64 r -> run p r = run p' r /\ Forall w64 (run p' r).
Proof.
  induction 1 as [|[x e] [y e'] p p' [<- H] _ IH]; intros r Hr; [now split|].
  destruct (H r Hr) as [E W]. unfold run in *. cbn [fold_left step]. rewrite E. apply IH. now apply Forall_upd_nth.
Qed.

Lemma w64_nth r x : Forall w64 r -> w64 (nth x r 0).
Proof.
  intros H. destruct (Nat.ltb_spec x (length r)); [now apply Forall_nth_lt|]. rewrite nth_overflow by auto. reflexivity.
Qed.
Lemma w64_tb a : (forall i, 64 <= i -> N.testbit a i = false) -> w64 a.
Proof. apply lt_pow2_tb. Qed.
Lemma tb_w64 a i : w64 a -> 64 <= i -> N.testbit a i = false.
Proof. intros H. now apply tb_high. Qed.
Lemma w64_xor a b : w64 a -> w64 b -> w64 (N.lxor a b).
Proof. intros Ha Hb. apply w64_tb. intros i Hi. now rewrite N.lxor_spec, !tb_w64. Qed.
Lemma w64_wnot a : w64 (wnot 64 a).
Proof. apply w64_tb. intros i Hi. rewrite tb_wnot. now replace (i <? 64) with false by lia. Qed.
Lemma w64_land a b : w64 b -> w64 (N.land a b).
Proof. intros Hb. apply w64_tb. intros i Hi. now rewrite N.land_spec, (tb_w64 b), andb_false_r. Qed.
Lemma w64_wror a k : w64 (wror 64 a k).
Proof.
  apply w64_tb. intros i Hi. unfold wror, wshl. rewrite N.lor_spec, N.shiftr_spec', !tb_wtrunc.
  replace (i + k <? 64) with false by lia. now replace (i <? 64) with false by lia.
Qed.

(* The three uses of the ternary instruction. *)
Section Tern.
  Variables (r : env) (a b c : exp).
  Hypothesis Wa : w64 (eval r a). Hypothesis Wb : w64 (eval r b). Hypothesis Wc : w64 (eval r c).
  Lemma tb_lit w (v : bool) i : w64 (eval r w) -> N.testbit (eval r (lit w v)) i = (i <? 64) && (if v then N.testbit (eval r w) i else negb (N.testbit (eval r w) i)).
  Proof.
    intros W. destruct v; cbn [lit eval]; [|now rewrite tb_wnot].
    destruct (N.ltb_spec i 64); auto. now rewrite tb_w64.
  Qed.
  Lemma tb_minterm k i : N.testbit (eval r (minterm a b c k)) i = (i <? 64) &&
    (if N.testbit k 2 then N.testbit (eval r a) i else negb (N.testbit (eval r a) i)) &&
    (if N.testbit k 1 then N.testbit (eval r b) i else negb (N.testbit (eval r b) i)) &&
    (if N.testbit k 0 then N.testbit (eval r c) i else negb (N.testbit (eval r c) i)).
  Proof.
    unfold minterm. cbn [eval]. rewrite !N.land_spec, !tb_lit by auto. destruct (i <? 64); cbn [andb]; auto.
  Qed.
  Ltac bits := apply bits_inj_iff'; intros i; cbn [eval];
    rewrite ?N.lor_spec, !tb_minterm, ?N.lxor_spec, ?N.land_spec, ?tb_wnot, ?N.lxor_spec, ?N.land_spec, ?tb_wnot, ?N.bits_0;
    destruct (N.ltb_spec i 64);
    [|rewrite ?(tb_w64 _ i Wa), ?(tb_w64 _ i Wb), ?(tb_w64 _ i Wc) by auto; reflexivity];
    destruct (N.testbit (eval r a) i), (N.testbit (eval r b) i), (N.testbit (eval r c) i); reflexivity.
  Lemma tern96 : eval r (ternarylogic a b c 0x96) = eval r (Xor (Xor a b) c).
  Proof. change (ternarylogic a b c 0x96) with (Or (Or (Or (Or (K 0) (minterm a b c 1)) (minterm a b c 2)) (minterm a b c 4)) (minterm a b c 7)). bits. Qed.
  Lemma ternd2 : eval r (ternarylogic a b c 0xd2) = eval r (Xor a (And (Not 64 b) c)).
  Proof. change (ternarylogic a b c 0xd2) with (Or (Or (Or (Or (K 0) (minterm a b c 1)) (minterm a b c 4)) (minterm a b c 6)) (minterm a b c 7)). bits. Qed.
  Lemma tern69 : eval r (ternarylogic a b c 0x69) = eval r (Not 64 (Xor (Xor a b) c)).
  Proof. change (ternarylogic a b c 0x69) with (Or (Or (Or (Or (K 0) (minterm a b c 0)) (minterm a b c 3)) (minterm a b c 5)) (minterm a b c 6)). bits. Qed.
End Tern.

(* ROUNDAVX without ternary instructions. *)
Definition round_avx : prog :=
  ([ x2 ::= x2 .^ vC .^ x1; x0 ^= V x4; x4 ^= V x3;
     t0 ::= V x0; t4 ::= V x4; t3 ::= V x3; t1 ::= V x1; t2 ::= V x2;
     x0 ::= t0 .^ (Not 64 t1 .& t2); x2 ::= t2 .^ (Not 64 t3 .& t4); x4 ::= t4 .^ (Not 64 t0 .& t1);
     x1 ::= t1 .^ (Not 64 t2 .& t3); x3 ::= t3 .^ (Not 64 t4 .& t0);
     x1 ^= V x0; x3 ^= V x2; x0 ^= V x4;
     t0 ::= mm_ror x0 19; t1 ::= mm_ror x0 28; t2 ::= mm_ror x1 39; t3 ::= mm_ror x1 61;
     x0 ::= x0 .^ t0 .^ t1; x1 ::= x1 .^ t2 .^ t3;
     t0 ::= mm_ror x2 1; t1 ::= mm_ror x2 6; t2 ::= mm_ror x3 10; t3 ::= mm_ror x3 17;
     x2 ::= Not 64 (x2 .^ t0 .^ t1); x3 ::= x3 .^ t2 .^ t3;
     t0 ::= mm_ror x4 7; t1 ::= mm_ror x4 41; x4 ::= x4 .^ t0 .^ t1 ])%prog.
Lemma ck_avx : check_round f_id 8 round_avx = true. Proof. vm_compute. reflexivity. Qed.
Lemma avx_same : Forall2 st_eq ROUNDAVX round_avx.
Proof.
  unfold ROUNDAVX, round_avx.
  repeat (apply Forall2_cons; [split; [reflexivity|]; intros r Hr; split|]); try apply Forall2_nil.
  all: try (rewrite ?tern96, ?ternd2, ?tern69 by (apply w64_nth; exact Hr); reflexivity).
  all: unfold mm_ror; cbn [eval]; auto 8 using w64_nth, w64_xor, w64_wnot, w64_land, w64_wror.
Qed.
Lemma rounds_same p p' n : Forall2 st_eq p p' -> forall cs ws, Forall w64 cs -> Forall w64 ws -> rounds p n cs ws = rounds p' n cs ws.
Proof.
  intros Hp cs. unfold rounds. induction cs as [|c cs IH]; intros ws Hc W; auto. cbn [fold_left]. inversion Hc; subst.
  assert (Hr : Forall w64 (ws ++ [c] ++ repeat 0 n)).
  { apply Forall_app. split; auto. constructor; auto. apply Forall_forall. intros x Hx. apply repeat_spec in Hx. subst. reflexivity. }
  destruct (run_eq p p' Hp _ Hr) as [E F]. rewrite E. apply IH; auto. now apply Forall_firstn_.
Qed.
Lemma avx_rounds_same cs ws : Forall w64 cs -> words5 ws -> rounds ROUNDAVX 8 cs ws = rounds round_avx 8 cs ws.
Proof. intros Hc [_ W]. exact (rounds_same ROUNDAVX round_avx 8 avx_same cs ws Hc W). Qed.

Lemma rounds_cat p n cs cs' ws : rounds p n cs' (rounds p n cs ws) = rounds p n (cs ++ cs') ws.
Proof. unfold rounds. now rewrite fold_left_app. Qed.

Lemma avx_rounds r cs s : wf40 s -> cs = map (permw f) (skipn (12 - r) ascon_rc) ->
  rounds ROUNDAVX 8 cs (stf f s) = stf f (ascon_p r s).
Proof.
  intros W E. unfold stf at 1. rewrite E, avx_rounds_same.
  2:{ apply Forall_map. eapply Forall_impl; [|apply rc_small]. intros; apply permw_w64. }
  2:{ destruct (lanes_words s W) as [L5 _]. split; [now rewrite map_length|]. apply Forall_map, Forall_forall. intros w _. apply permw_w64. }
  rewrite (rounds_ok f 8 round_avx ck_avx); [|now apply lanes_words|apply rc_small].
  unfold stf. now rewrite lanes_ascon.
Qed.
Lemma avx_e0 cs s : wf40 s -> In cs [avx_first; avx_second] -> rounds ROUNDAVX 8 (map snd cs) (stf f s) = stf f (ascon_p 6 s).
Proof.
  intros W [<-|[<-|[]]]; apply avx_rounds; auto.
Qed.
Lemma avx_e1 s : wf40 s ->
  rounds ROUNDAVX 8 (map fst avx_second) (rounds ROUNDAVX 8 (map fst avx_first) (stf f s)) = stf f (ascon_p 12 s).
Proof. intros W. rewrite rounds_cat. apply avx_rounds; auto. Qed.

(* ---------- lanes and texts ---------- *)

Lemma le_word_cons b r : bytes (b :: r) -> (length r <= 7)%nat -> N.lor (u64 (N.shiftl (le_word r) 8)) b = le_word (b :: r).
Proof.
  intros B L. inversion B as [|? ? Hb Br]; subst. apply bits_inj_iff'. intros i.
  rewrite N.lor_spec, tb_le_word by auto. unfold u64. 
  assert (Hm : N.testbit (N.shiftl (le_word r) 8 mod 2 ^ 64) i = N.testbit (N.shiftl (le_word r) 8) i).
  { rewrite N.mod_small; auto. pose proof (le_word_lt r Br) as H. rewrite N.shiftl_mul_pow2.
    apply N.lt_le_trans with (2 ^ (8 * N.of_nat (length r)) * 2 ^ 8); [nia|]. rewrite <- N.pow_add_r. apply N.pow_le_mono_r; lia. }
  rewrite Hm. destruct (N.ltb_spec i 8) as [Hi|Hi].
  - rewrite N.shiftl_spec_low by auto. replace (N.to_nat (i / 8)) with 0%nat by lia. cbn [nth orb]. now replace (i mod 8) with i by lia.
  - rewrite N.shiftl_spec_high' by auto. rewrite tb_le_word by auto.
    replace (N.to_nat (i / 8)) with (S (N.to_nat ((i - 8) / 8))) by lia. cbn [nth].
    replace ((i - 8) mod 8) with (i mod 8) by lia.
    assert (E : N.testbit b i = false); [|now rewrite E, orb_false_r].
    apply (tb_high _ 8); auto.
Qed.

Lemma r_text_word M m o x : has M (padd m o) x -> bytes x -> (length x <= 8)%nat -> o + N.of_nat (length x) < 2 ^ 64 ->
  runs (text_word m o (N.of_nat (length x))) M (le_word x) M.
Proof.
  intros H B L Ho. unfold text_word.
  apply (runs_for (fun i => le_word (skipn (length x - i) x)) (fun _ => M)) with (a1 := le_word x) (m1 := M); auto.
  - rewrite Nat2N.id. intros i Hi. eapply runs_bind.
    + apply runs_load. rewrite (sub64_small (N.of_nat (length x)) (N.of_nat i)) by lia. rewrite sub64_small, u64_small by lia.
      replace (o + (N.of_nat (length x) - N.of_nat i - 1)) with (o + N.of_nat (length x - S i)) by lia.
      rewrite <- padd_padd. apply H. lia.
    + eapply runs_eq; [apply runs_ret| |reflexivity].
      rewrite (skipn_cons_nth x (length x - S i) 0) by lia. replace (S (length x - S i)) with (length x - i)%nat by lia.
      apply le_word_cons; [|rewrite skipn_length; lia].
      replace (length x - i)%nat with (S (length x - S i)) by lia. rewrite <- skipn_cons_nth by lia. now apply bytes_skipn.
  - rewrite Nat.sub_0_r, skipn_all. reflexivity.
  - now rewrite Nat2N.id, Nat.sub_diag.
Qed.

Lemma r_put_text UL M c v n o : (n <= 8)%nat -> room M (padd c (N.of_nat o)) n -> N.of_nat (o + n) < 2 ^ UL ->
  runs (put_text UL c v (N.of_nat n) (N.of_nat o)) M (N.of_nat (o + n)) (putp M (padd c (N.of_nat o)) (firstn n (word_le 8 v))).
Proof.
  intros Hn R Ho. unfold put_text.
  assert (Rk : forall i, (i <= n)%nat -> room M (padd c (N.of_nat o)) (length (firstn i (word_le 8 v)))).
  { intros i Hi j Hj. apply R. rewrite firstn_length in Hj. lia. }
  apply (runs_for (fun i => N.of_nat (o + i)) (fun i => putp M (padd c (N.of_nat o)) (firstn i (word_le 8 v)))).
  - rewrite Nat2N.id. intros i Hi. eapply runs_bind.
    + apply runs_store1. rewrite inside_putp by (apply Rk; lia). rewrite Nat2N.inj_add, <- padd_padd. now apply R.
    + eapply runs_eq; [apply runs_ret| |].
      * rewrite ulA_small by lia. lia.
      * rewrite (firstn_snoc (word_le 8 v) i 0) by (rewrite word_le_length; lia). rewrite <- putp_app_bytes.
        -- rewrite nth_word_le by lia. rewrite firstn_length, word_le_length, padd_padd, Nat2N.id. do 2 f_equal. lia.
        -- rewrite <- firstn_snoc by (rewrite word_le_length; lia). apply Rk. lia.
  - now rewrite Nat.add_0_r.
  - apply putp_nil.
  - now rewrite Nat2N.id.
  - now rewrite Nat2N.id.
Qed.

Lemma zu64_nat n : N.of_nat n < 2 ^ 63 -> zu64 (Z.of_nat n) = N.of_nat n.
Proof. intros H. unfold zu64. rewrite Z.mod_small by lia. lia. Qed.
Lemma s64_nat n : N.of_nat n < 2 ^ 63 -> s64 (N.of_nat n) = Z.of_nat n.
Proof. intros H. unfold s64. replace (N.of_nat n <? 2 ^ 63) with true by lia. lia. Qed.
Lemma lt_ll_nat UL i n : N.of_nat n < 2 ^ 63 -> lt_ll UL (N.of_nat i) (Z.of_nat n) = (i <? n)%nat.
Proof. intros H. unfold lt_ll. rewrite zu64_nat by auto. destruct (UL <? 64); lia. Qed.
Lemma eq_ll_nat UL i n : N.of_nat n < 2 ^ 63 -> eq_ll UL (N.of_nat i) (Z.of_nat n) = (i =? n)%nat.
Proof. intros H. unfold eq_ll. rewrite zu64_nat by auto. destruct (UL <? 64); lia. Qed.

(* The next lane to be authenticated, y being what is left. *)
Definition next_lane (y : list N) : list N := firstn 8 (y ++ 0x80 :: repeat 0 7).
Lemma next_lane_length y : length (next_lane y) = 8%nat.
Proof. unfold next_lane. rewrite firstn_length, app_length. cbn [length]. rewrite repeat_length. lia. Qed.
Lemma next_lane_bytes y : bytes y -> bytes (next_lane y).
Proof. intros B. apply bytes_firstn, bytes_app. split; auto. constructor; [lia|]. apply bytes_repeat. lia. Qed.
Lemma next_lane_full y : (8 <= length y)%nat -> next_lane y = firstn 8 y.
Proof. intros H. unfold next_lane. rewrite firstn_app. replace (8 - length y)%nat with 0%nat by lia. rewrite firstn_O. apply app_nil_r. Qed.
Lemma next_lane_part y : (length y < 8)%nat -> next_lane y = y ++ 0x80 :: repeat 0 (7 - length y).
Proof.
  intros H. unfold next_lane. rewrite firstn_app, firstn_all2 by lia. f_equal.
  replace (8 - length y)%nat with (S (7 - length y)) by lia. cbn [firstn]. f_equal.
  apply (nth_ext_le _ _ 0); rewrite ?firstn_length, ?repeat_length; [lia|]. intros i Hi.
  rewrite nth_firstn_lt by lia. now rewrite !nth_repeat.
Qed.

Lemma r_mac_lane UL M c y o : has M (padd c (N.of_nat o)) (firstn 8 y) -> bytes y -> N.of_nat (length y) < 2 ^ 63 -> N.of_nat (o + length y) < 2 ^ UL ->
  runs (mac_lane UL c (Z.of_nat (length y)) (N.of_nat o)) M (next_lane y, N.of_nat (o + Nat.min 8 (length y))) M.
Proof.
  intros H B L63 LU. unfold mac_lane. pose proof (next_lane_length y) as Ln.
  apply (runs_for (fun k => (firstn k (next_lane y), N.of_nat (o + Nat.min k (length y)))) (fun _ => M)); auto.
  - change (N.to_nat 8) with 8%nat. intros k Hk. rewrite (firstn_snoc (next_lane y) k 0) by lia.
    assert (En : nth k (next_lane y) 0 = if (k <? length y)%nat then nth k y 0 else if (k =? length y)%nat then 0x80 else 0).
    { unfold next_lane. rewrite nth_firstn_lt by auto. destruct (Nat.ltb_spec k (length y)); [now rewrite app_nth1|].
      rewrite app_nth2 by auto. destruct (Nat.eqb_spec k (length y)) as [->|]; [now rewrite Nat.sub_diag|].
      replace (k - length y)%nat with (S (k - length y - 1)) by lia. cbn [nth]. apply nth_repeat. }
    rewrite lt_ll_nat, eq_ll_nat, En by auto. apply runs_if. destruct (Nat.ltb_spec k (length y)) as [Hc|Hc].
    + eapply runs_bind.
      * apply runs_load. replace (Nat.min k (length y)) with k by lia. rewrite Nat2N.inj_add, <- padd_padd.
        specialize (H k). rewrite firstn_length, nth_firstn_lt in H by lia. apply H. lia.
      * eapply runs_eq; [apply runs_ret| |reflexivity]. rewrite ulA_small by lia. f_equal. lia.
    + apply runs_if. destruct (Nat.eqb_spec k (length y)) as [E|E];
        (eapply runs_eq; [apply runs_ret| |reflexivity]); do 2 f_equal; lia.
  - cbn [Nat.min]. now rewrite firstn_O, Nat.add_0_r.
  - change (N.to_nat 8) with 8%nat. now rewrite firstn_all2 by lia.
Qed.

(* Absorbing the lanes one after the other. *)
Definition mk (s ct : list N) (k : nat) : list N :=
  if (k <=? length ct / 8)%nat then absA s (chunks 8 (firstn (8 * k) ct)) else absA s (chunks 8 (Spec.pad 8 ct)).
Lemma mk_S s ct k : (k <= length ct / 8)%nat -> ascon_p 12 (xorp (mk s ct k) (next_lane (skipn (8 * k) ct))) = mk s ct (S k).
Proof.
  intros Hk. unfold mk. replace (k <=? length ct / 8)%nat with true by lia.
  destruct (Nat.leb_spec (S k) (length ct / 8)) as [H|H].
  - rewrite next_lane_full by (rewrite skipn_length; lia). now rewrite <- absA_S by lia.
  - replace k with (length ct / 8)%nat by lia. rewrite absA_last. cbv zeta.
    rewrite next_lane_part by (rewrite skipn_length; lia). f_equal.
    set (y := skipn _ ct). change (0x80 :: repeat 0 (7 - length y)) with ([0x80] ++ repeat 0 (7 - length y)).
    now rewrite app_assoc, xorp_zeros.
Qed.
Lemma wf_mk s ct k : wf40 s -> bytes ct -> wf40 (mk s ct k).
Proof.
  intros W B. unfold mk. destruct (_ <=? _)%nat; apply wf_absA; auto; apply chunks_Forall; [now apply bytes_firstn|now apply bytes_pad].
Qed.

(* Ciphertext lane number j, possibly incomplete or empty. *)
Lemma ct_lane K Nn T j : length K = 16%nat -> length Nn = 16%nat -> bytes K -> bytes Nn -> bytes T ->
  let ct := Spec.isap_enc IA K Nn T in let n := Nat.min 8 (length T - 8 * j) in
  firstn n (word_le 8 (N.lxor (WORDTOU64 avxa (getx (stf f (iter (ascon_p 6) (S j) (estA K Nn))) 0)) (le_word (firstn n (skipn (8 * j) T)))))
  = firstn n (skipn (8 * j) ct).
Proof.
  intros LK LN BK BN BT ct n. set (s := iter (ascon_p 6) (S j) (estA K Nn)).
  assert (W : wf40 s) by (apply iter_ok; [intros; now apply wf40_ascon|now apply wf_estA]).
  assert (Lct : length ct = length T) by now apply (v_enc_length A128A).
  apply (nth_ext_le _ _ 0).
  - rewrite !firstn_length, word_le_length, skipn_length. lia.
  - intros i Hi. rewrite firstn_length, word_le_length in Hi. rewrite !nth_firstn_lt by lia. rewrite nth_word_le by lia.
    rewrite byte_at_xor, nth_skipn_add. unfold ct. rewrite encA_nth by (auto; lia).
    replace ((8 * j + i) / 8)%nat with j by lia. replace ((8 * j + i) mod 8)%nat with i by lia. fold s. rewrite N.lxor_comm. f_equal.
    + rewrite <- (nth_word_le 8) by lia.
      assert (E : nth i (word_le 8 (le_word (firstn n (skipn (8 * j) T)))) 0 = nth i (firstn n (skipn (8 * j) T)) 0).
      { rewrite nth_word_le by lia. apply bits_inj_iff'. intros b. rewrite tb_byte_at.
        assert (Bx : bytes (firstn n (skipn (8 * j) T))) by now apply bytes_firstn, bytes_skipn.
        rewrite tb_le_word by auto. destruct (N.ltb_spec b 8) as [Hb|Hb]; cbn [andb].
        - replace (N.to_nat ((b + 8 * N.of_nat i) / 8)) with i by lia. f_equal. lia.
        - symmetry. apply (tb_high _ 8); auto. change (2 ^ 8) with 256. now apply bytes_nth. }
      rewrite E, nth_firstn_lt by lia. now rewrite nth_skipn_add.
    + rewrite <- (nth_word_le 8) by lia. rewrite (proj1 (lane_out f avxa rounds_used s 0 avxa_ok W ltac:(lia))).
      unfold lane_bytes. rewrite nth_firstn_lt by lia. now rewrite Nat.mul_0_r, skipn_O.
Qed.

Lemma firstn_plus {A} n k (l : list A) : firstn (n + k) l = firstn n l ++ firstn k (skipn n l).
Proof.
  revert l. induction n as [|n IH]; intros l; [reflexivity|]. destruct l as [|x l]; [now rewrite !firstn_nil|].
  cbn [Nat.add firstn skipn app]. now rewrite IH.
Qed.

Lemma skipn_plus {A} n k (l : list A) : skipn k (skipn n l) = skipn (n + k) l.
Proof.
  revert l. induction n as [|n IH]; intros l; [reflexivity|]. destruct l as [|x l]; [now rewrite !skipn_nil|].
  cbn [Nat.add skipn]. apply IH.
Qed.

Lemma setx_same s i : setx s i (getx s i) = s.
Proof.
  unfold setx, getx. revert i. induction s as [|x s IH]; intros [|i]; cbn [upd_nth nth]; auto. now rewrite IH.
Qed.
Lemma setx_0 s i : setx s i (N.lxor (getx s i) 0) = s.
Proof. rewrite N.lxor_0_r. apply setx_same. Qed.

Lemma bytes_dom : bytes (repeat 0 39 ++ [1]).
Proof. apply bytes_app. split; [apply bytes_repeat; lia|repeat constructor]. Qed.

Lemma next_t (M : mem) mp c (T ct : list N) n j : has M mp T -> room M c (length T) -> fwd_ok c mp (length T) -> length ct = length T ->
  (n + j <= length T)%nat -> has (putp M c (firstn n ct)) (padd mp (N.of_nat n)) (firstn j (skipn n T)).
Proof.
  intros HT Rc Hf Lct Hn. apply has_putp_disj.
  - intros i Hi. apply Rc. rewrite firstn_length in Hi. lia.
  - apply has_firstn. now apply has_skipn.
  - intros i i' Hi Hi'. rewrite firstn_length in Hi. rewrite padd_padd, <- Nat2N.inj_add. apply Hf.
    rewrite firstn_length, skipn_length in Hi'. lia.
Qed.

Section Loop.
  Variable UL : N.
  Variables (K Nn A T : list N) (M : mem) (mp c : ptr).
  Notation len := (length T).
  Notation pE := (ascon_p 6).
  Let est := estA K Nn.
  Let ct := Spec.isap_enc IA K Nn T.
  Hypothesis LK : length K = 16%nat. Hypothesis LN : length Nn = 16%nat.
  Hypothesis BK : bytes K. Hypothesis BN : bytes Nn. Hypothesis BA : bytes A. Hypothesis BT : bytes T.
  Hypothesis HT : has M mp T. Hypothesis Rc : room M c len. Hypothesis Hf : fwd_ok c mp len.
  Hypothesis L63 : N.of_nat len < 2 ^ 63. Hypothesis LUL : N.of_nat len < 2 ^ UL.
  Variable s1 : list N.
  Hypothesis W1 : wf40 s1.
  Let s2 := absA s1 (chunks 8 (Spec.pad 8 A)).
  Let sd := xorp s2 (repeat 0 39 ++ [1]).

  Lemma lct : length ct = len.
  Proof. now apply (v_enc_length A128A). Qed.
  Lemma bct : bytes ct.
  Proof. now apply (v_enc_bytes A128A). Qed.
  Lemma wf_it j : wf40 (iter pE j est).
  Proof. apply iter_ok; [intros; now apply wf40_ascon|now apply wf_estA]. Qed.
  Lemma wf_s2 : wf40 s2.
  Proof. apply wf_absA; auto. now apply chunks_Forall, bytes_pad. Qed.
  Lemma wf_sd : wf40 sd.
  Proof. apply wf40_xorp; auto using wf_s2, bytes_dom. Qed.

  (* Before round i of the loop. *)
  Definition mac_i (i : nat) : list N := match i with O => preA s1 A | S j => mk sd ct j end.
  Definition L_ (i : nat) : lst :=
    Lst (stf f (iter pE (2 * i) est), stf f (mac_i i)) (if (i =? 0)%nat then (0, 1) else (0, 0))
        (Z.of_nat len - 16 * Z.of_nat i) (Z.of_nat len - 8 * Z.of_nat (i - 1)) (N.of_nat (Nat.min (16 * i) len)) (N.of_nat (8 * (i - 1))).
  Lemma wf_mac_i i : wf40 (mac_i i).
  Proof. destruct i; [now apply wf_preA|apply wf_mk; [exact wf_sd|exact bct]]. Qed.

  Lemma mac_step i : (i = 0 \/ 16 * i < len)%nat ->
    ascon_p 12 (xorp (mac_i i) (match i with O => [] | S j => next_lane (skipn (8 * j) ct) end)) =
    match i with O => s2 | S j => mac_i (S i) end.
  Proof.
    destruct i as [|j]; intros H.
    - unfold mac_i. replace (xorp (preA s1 A) []) with (preA s1 A); [apply preA_last|].
      now destruct (preA s1 A).
    - cbn [mac_i]. apply mk_S. rewrite lct. lia.
  Qed.

  Lemma room_c n : (n <= len)%nat -> room M c (length (firstn n ct)).
  Proof. intros H i Hi. apply Rc. rewrite firstn_length in Hi. lia. Qed.

  Lemma r_body i : (i = 0 \/ 16 * i < len)%nat ->
    runs (mac_enc_body UL c mp (N.of_nat len) (L_ i)) (putp M c (firstn (16 * i) ct)) (L_ (S i)) (putp M c (firstn (16 * S i) ct)).
  Proof.
    intros Hi. set (R := L_ (S i)). unfold mac_enc_body, L_. cbn [l_enc l_ienc l_mac l_imac l_v l_dom].
    assert (Lct := lct). assert (Hi' : (16 * i <= len)%nat) by lia.
    replace (Z.of_nat len - 16 * Z.of_nat i)%Z with (Z.of_nat (len - 16 * i)) by lia.
    replace (Nat.min (16 * i) len) with (16 * i)%nat by lia.
    rewrite zu64_nat by lia.
    set (n1 := Nat.min 8 (len - 8 * (2 * i))). set (n2 := Nat.min 8 (len - 8 * S (2 * i))).
    set (M0 := putp M c (firstn (16 * i) ct)).
    apply (runs_bind _ _ _ (N.of_nat n1) M0).
    { apply runs_if. destruct (Z.leb_spec 8 (Z.of_nat (len - 16 * i))); (eapply runs_eq; [apply runs_ret| |reflexivity]); lia. }
    apply (runs_bind _ _ _ (N.of_nat n2) M0).
    { rewrite sub64_small by lia. apply runs_if. destruct (N.leb_spec 8 (N.of_nat (len - 16 * i) - N.of_nat n1)).
      - eapply runs_eq; [apply runs_ret| |reflexivity]; lia.
      - apply runs_if. destruct (N.ltb_spec (N.of_nat n1) 8); (eapply runs_eq; [apply runs_ret| |reflexivity]); lia. }
    assert (HR : has M0 (padd mp (N.of_nat (16 * i))) (firstn (len - 16 * i) (skipn (16 * i) T))).
    { apply next_t; auto. lia. }
    set (x1 := firstn n1 (skipn (8 * (2 * i)) T)). set (x2 := firstn n2 (skipn (8 * S (2 * i)) T)).
    assert (Lx1 : length x1 = n1) by (unfold x1; rewrite firstn_length, skipn_length; lia).
    assert (Lx2 : length x2 = n2) by (unfold x2; rewrite firstn_length, skipn_length; lia).
    assert (Bx1 : bytes x1) by now apply bytes_firstn, bytes_skipn.
    assert (Bx2 : bytes x2) by now apply bytes_firstn, bytes_skipn.
    rewrite firstn_all2 in HR by (rewrite skipn_length; lia).
    apply (runs_bind _ _ _ (le_word x1) M0).
    { rewrite <- Lx1 at 1. apply r_text_word; auto; try lia. unfold x1. replace (8 * (2 * i))%nat with (16 * i)%nat by lia.
      now apply has_firstn. }
    apply (runs_bind _ _ _ (le_word x2) M0).
    { rewrite u64_small by lia. rewrite <- Lx2 at 1. apply r_text_word; auto; try lia.
      destruct (Nat.eqb_spec n1 8) as [E|E].
      - rewrite E, <- padd_padd. unfold x2. apply has_firstn.
        pose proof (has_skipn M0 _ _ 8 HR) as H8. rewrite skipn_plus in H8.
        now replace (8 * S (2 * i))%nat with (16 * i + 8)%nat by lia.
      - replace x2 with (@nil N) by (destruct x2; auto; cbn [length] in Lx2; lia). intros j Hj. cbn [length] in Hj. lia. }
    set (lane := match i with O => repeat 0 8 | S j => next_lane (skipn (8 * j) ct) end).
    assert (Bl : bytes lane) by (destruct i; [apply bytes_repeat; lia|apply next_lane_bytes, bytes_skipn, bct]).
    assert (Ll : length lane = 8%nat) by (destruct i; [apply repeat_length|apply next_lane_length]).
    apply (runs_bind _ _ _ (permw f (be_word lane), (Z.of_nat len - 8 * Z.of_nat (S i - 1))%Z, N.of_nat (8 * (S i - 1))) M0).
    { apply runs_if. destruct i as [|j].
      - replace (N.of_nat (len - 16 * 0) <? N.of_nat len) with false by lia. eapply runs_eq; [apply runs_ret| |reflexivity].
        reflexivity.
      - replace (N.of_nat (len - 16 * S j) <? N.of_nat len) with true by lia.
        replace (S j - 1)%nat with j by lia. replace (S (S j) - 1)%nat with (S j) by lia.
        set (y := skipn (8 * j) ct). assert (Ly : length y = (len - 8 * j)%nat) by (unfold y; rewrite skipn_length; lia).
        replace (Z.of_nat len - 8 * Z.of_nat j)%Z with (Z.of_nat (length y)) by lia.
        assert (H0 : has M0 c (firstn (16 * S j) ct)) by (apply has_putp_same, room_c; lia).
        eapply runs_bind.
        { apply r_mac_lane; try lia; [|apply bytes_skipn, bct].
          pose proof (has_skipn M0 _ _ (8 * j) H0) as H1. apply (has_firstn _ _ _ 8) in H1.
          replace (firstn 8 y) with (firstn 8 (skipn (8 * j) (firstn (16 * S j) ct))); auto.
          unfold y. rewrite skipn_firstn_comm, firstn_firstn. f_equal. lia. }
        eapply runs_bind.
        { unfold ssub. replace (_ <? _)%Z with false by lia. apply runs_ret. }
        eapply runs_eq; [apply runs_ret| |reflexivity]. cbn [fst snd].
        rewrite (lane_in f avxa rounds_used lane avxa_ok Bl Ll : U64TOWORD avxa (le_word (next_lane y)) = _).
        f_equal; [f_equal|]; lia. }
    cbv beta iota. unfold vxor at 1. cbn [fst snd]. rewrite setx_0.
    rewrite stf_blk by auto using wf_mac_i.
    set (E0 := iter pE (2 * i) est).
    assert (Wx : wf40 (xorp (mac_i i) lane)) by (apply wf40_xorp; auto using wf_mac_i).
    eapply runs_bind; [eapply runs_bind; [apply runs_emit|apply runs_ret]|].
    unfold vrounds. cbn [fst snd]. rewrite (avx_e0 avx_first) by (first [apply wf_it|left; reflexivity]).
    change (pE E0) with (iter pE (S (2 * i)) est).
    eapply runs_bind; [eapply runs_bind; [apply runs_emit|apply runs_ret]|].
    unfold vrounds. cbn [fst snd]. rewrite (avx_e0 avx_second) by (first [apply wf_it|right; left; reflexivity]).
    rewrite avx_e1 by auto.
    change (pE (iter pE (S (2 * i)) est)) with (iter pE (S (S (2 * i))) est).
    set (v1 := N.lxor _ (le_word x1)). set (v2 := N.lxor _ (le_word x2)).
    assert (C1 : firstn n1 (word_le 8 v1) = firstn n1 (skipn (8 * (2 * i)) ct)) by exact (ct_lane K Nn T (2 * i) LK LN BK BN BT).
    assert (C2 : firstn n2 (word_le 8 v2) = firstn n2 (skipn (8 * S (2 * i)) ct)) by exact (ct_lane K Nn T (S (2 * i)) LK LN BK BN BT).
    assert (F1 : firstn (16 * i + n1) ct = firstn (16 * i) ct ++ firstn n1 (word_le 8 v1)).
    { rewrite C1, firstn_plus. do 3 f_equal. lia. }
    assert (F2 : firstn (16 * i + n1 + n2) ct = firstn (16 * i + n1) ct ++ firstn n2 (word_le 8 v2)).
    { rewrite C2, firstn_plus. f_equal. destruct (Nat.eqb_spec n2 0) as [->|]; [now rewrite !firstn_O|]. do 2 f_equal. lia. }
    assert (Lf1 : length (firstn (16 * i) ct) = (16 * i)%nat) by (rewrite firstn_length; lia).
    assert (Lf2 : length (firstn (16 * i + n1) ct) = (16 * i + n1)%nat) by (rewrite firstn_length; lia).
    apply (runs_bind _ _ _ (N.of_nat (16 * i + n1)) (putp M c (firstn (16 * i + n1) ct))).
    { eapply runs_eq; [apply r_put_text; try lia|reflexivity|].
      - apply room_putp; [apply room_c; lia|]. apply (room_sub M c len); auto. lia.
      - rewrite F1, <- putp_app_bytes; [now rewrite Lf1|]. rewrite <- F1. apply room_c. lia. }
    apply (runs_bind _ _ _ (N.of_nat (16 * i + n1 + n2)) (putp M c (firstn (16 * i + n1 + n2) ct))).
    { eapply runs_eq; [apply r_put_text; try lia|reflexivity|].
      - apply room_putp; [apply room_c; lia|]. apply (room_sub M c len); auto. lia.
      - rewrite F2, <- putp_app_bytes; [now rewrite Lf2|]. rewrite <- F2. apply room_c. lia. }
    eapply runs_bind.
    { unfold ssub. replace (_ <? _)%Z with false by lia. apply runs_ret. }
    eapply runs_eq; [apply runs_ret| |].
    - unfold R, L_. f_equal; try lia.
      + unfold vxor. cbn [fst snd].
        replace (2 * S i)%nat with (S (S (2 * i))) by lia. 
        assert (Em : ascon_p 12 (xorp (mac_i i) lane) = match i with O => s2 | S j => mac_i (S i) end).
        { rewrite <- mac_step by auto. unfold lane. destruct i as [|j]; [|reflexivity]. f_equal.
          rewrite <- (app_nil_l (repeat 0 8)). apply xorp_zeros. }
        rewrite Em. destruct i as [|j]; cbn [Nat.eqb fst snd]; rewrite !setx_0; auto.
        rewrite (stf_dom f avxa rounds_used) by (auto using wf_s2; exact avxa_ok). fold sd.
        f_equal.
      + destruct i; reflexivity.
    - f_equal. destruct (Nat.leb_spec len (16 * S i)).
      + rewrite !firstn_all2 by lia. reflexivity.
      + f_equal. lia.
  Qed.

  (* The rounds executed: one at least. *)
  Definition n_body : nat := Nat.max 1 ((len + 15) / 16).
  Lemma n_body_pos : (1 <= n_body)%nat.
  Proof. unfold n_body. lia. Qed.
  Lemma n_body_in i : (1 <= i < n_body)%nat -> (16 * i < len)%nat.
  Proof. unfold n_body. lia. Qed.
  Lemma n_body_end : (len <= 16 * n_body)%nat.
  Proof. unfold n_body. lia. Qed.
  Lemma n_body_mac : (n_body - 1 <= len / 8)%nat.
  Proof. unfold n_body. lia. Qed.

  Lemma r_loop : runs (l <- mac_enc_body UL c mp (N.of_nat len) (L_ 0) ;;
      while_ (S (N.to_nat (N.of_nat len / 16))) (fun l => 0 <? l_enc l)%Z (mac_enc_body UL c mp (N.of_nat len)) l) M
      (L_ n_body) (putp M c ct).
  Proof.
    pose proof n_body_pos as P1. pose proof n_body_end as P2. pose proof n_body_in as P3. pose proof lct as Lct.
    eapply runs_bind.
    { pose proof (r_body 0 ltac:(now left)) as H. rewrite firstn_O, putp_nil in H. exact H. }
    apply (runs_while (fun j => L_ (S j)) (fun j => putp M c (firstn (16 * S j) ct)) (n_body - 1)).
    - unfold n_body. lia.
    - intros j Hj. assert (16 * S j < len)%nat by (apply P3; lia). split.
      + unfold L_. cbn [l_enc]. lia.
      + apply r_body. now right.
    - unfold L_. cbn [l_enc]. lia.
    - reflexivity.
    - reflexivity.
    - f_equal. lia.
    - rewrite firstn_all2 by lia. reflexivity.
  Qed.

  (* The rest of the ciphertext is authenticated. *)
  Lemma r_tail (M' : mem) : has M' c ct ->
    runs (while_ (S (S (N.to_nat (N.of_nat len / 8)))) (fun st => 0 <=? snd (fst st))%Z (mac_rest UL c)
                 (snd (l_v (L_ n_body)), l_mac (L_ n_body), l_imac (L_ n_body))) M'
         (stf f (absA sd (chunks 8 (Spec.pad 8 ct))), Z.of_nat len - 8 * Z.of_nat (S (len / 8)), N.of_nat len)%Z M'.
  Proof.
    intros Hc. pose proof n_body_pos as P1. pose proof n_body_mac as P2. pose proof lct as Lct.
    set (b := (n_body - 1)%nat) in *.
    apply (runs_while (fun j => (stf f (mk sd ct (b + j)), Z.of_nat len - 8 * Z.of_nat (b + j), N.of_nat (Nat.min (8 * (b + j)) len))%Z)
             (fun _ => M') (S (len / 8) - b)).
    - lia.
    - intros j Hj. cbn [fst snd]. split; [lia|].
      set (y := skipn (8 * (b + j)) ct).
      assert (Ly : length y = (len - 8 * (b + j))%nat) by (unfold y; rewrite skipn_length; lia).
      unfold mac_rest.
      replace (Z.of_nat len - 8 * Z.of_nat (b + j))%Z with (Z.of_nat (length y)) by lia.
      replace (Nat.min (8 * (b + j)) len) with (8 * (b + j))%nat by lia.
      eapply runs_bind.
      { apply r_mac_lane; try lia; [|apply bytes_skipn, bct]. apply has_firstn. now apply has_skipn. }
      cbn [fst snd].
      assert (Wm : wf40 (mk sd ct (b + j))) by (apply wf_mk; [exact wf_sd|exact bct]).
      assert (By : bytes (next_lane y)) by (apply next_lane_bytes, bytes_skipn, bct).
      rewrite (lane_in f avxa rounds_used _ avxa_ok) by (auto using next_lane_length).
      rewrite stf_blk by (auto using next_lane_length).
      eapply runs_bind; [apply r_P12A; apply wf40_xorp; auto|].
      eapply runs_bind.
      { unfold ssub. replace (_ <? _)%Z with false by lia. apply runs_ret. }
      eapply runs_eq; [apply runs_ret| |reflexivity].
      unfold y. rewrite mk_S by (rewrite Lct; lia). fold y.
      rewrite <- Nat.add_succ_r. f_equal; [f_equal; lia|lia].
    - cbn [fst snd]. lia.
    - unfold L_. cbn [l_v l_mac l_imac snd]. rewrite Nat.add_0_r.
      destruct n_body as [|n] eqn:E; [lia|]. cbn [mac_i]. replace b with n by lia. f_equal; [f_equal; lia|lia].
    - reflexivity.
    - f_equal; [f_equal|]; try lia.
      unfold mk. replace (_ <=? _)%nat with false by lia. reflexivity.
    - reflexivity.
  Qed.
End Loop.

Section MacEnc.
  Variables (cf : cfg) (UL : N).
  Hypothesis Hcal : forall i, (i < 4)%nat -> al8 cf (P i 0).
  Hypothesis Hlax : strict cf = false.

  (* The length of the associated data enters only modulo 2^UL. *)
  Lemma mac_enc_ok mm k npub ad alen c mp K Nn A T :
    consts_ok csA mm -> bytes_at mm k K -> length K = 16%nat -> bytes_at mm npub Nn -> length Nn = 16%nat -> bytes_at mm ad A ->
    bytes_at mm mp T -> ulA UL alen = N.of_nat (length A) -> N.of_nat (length T) < 2 ^ UL -> N.of_nat (length T) < 2 ^ 63 ->
    room mm c (length T + 16) -> (length csA <= pb c)%nat ->
    disj c (length T + 16) k 16 -> fwd_ok c mp (length T) ->
    runs (isap_mac_enc UL cf k npub ad alen c (N.of_nat (length T)) mp (N.of_nat (length T)) (padd c (N.of_nat (length T))))
      mm tt (putp mm c (Spec.isap_encrypt IA K Nn A T)).
  Proof.
    assert (AL : forall p, aligned cf p 8 = true) by (intros q; unfold aligned; now rewrite Hlax).
    intros Hc [BK Hk] LK [BN Hn] LN [BA HA] [BT HT] La Lt L63 Rc Pc Dk Hf.
    destruct (csA_ivs mm Hc) as (I1 & I2 & I3).
    assert (Bi : forall x, x = Spec.iv_A IA \/ x = Spec.iv_KE IA -> bytes x) by (intros x [->| ->]; apply bytes_ivA; lia).
    set (ct := Spec.isap_enc IA K Nn T). assert (Lct : length ct = length T) by now apply (v_enc_length A128A).
    assert (Bct : bytes ct) by now apply (v_enc_bytes A128A).
    set (s := mac_st Nn A ct). assert (W : wf40 s) by now apply wf_mac_st.
    assert (WK : wf40 (kstA K s)) by now apply wf_kstA.
    set (s0 := estA K Nn). assert (W0 : wf40 s0) by now apply wf_estA.
    set (R := rk_full K (Spec.iv_KE IA) Nn). assert (WR : wf40 R) by (apply wf_rk_full; auto).
    unfold isap_mac_enc. apply (runs_with_block _ _ _ _ _ (map Some (kstA K s))).
    set (Ma := mm ++ [uninit 40]). set (sm := P (length mm) 0).
    apply (runs_with_block _ _ _ _ _ (map Some s0)).
    set (M0 := Ma ++ [uninit 40]). set (se := P (length Ma) 0).
    assert (F0 : forall q bs, has mm q bs -> has M0 q bs) by (intros; now do 2 apply has_app).
    assert (R0 : room M0 se 40) by (apply room_of_le; unfold se, M0; cbn [pb po]; rewrite blk_mid, uninit_length; lia).
    assert (Put : forall bs, length bs = 40%nat -> putp M0 se bs = Ma ++ [map Some bs]).
    { intros bs Lb. unfold M0, se, putp, put. cbn [pb po]. rewrite blk_mid, upd_mid. change (N.to_nat 0) with 0%nat.
      do 2 f_equal. apply splice_all. now rewrite map_length, uninit_length. }
    assert (LR : length (firstn 24 R) = 24%nat) by (rewrite firstn_length, (proj1 WR); reflexivity).
    eapply runs_bind.
    { apply (r_isap_rkA cf Hcal M0 k RefIsap.ISAP_IV_KE npub se _ K (Spec.iv_KE IA) Nn 24); auto; try (intros ?; apply AL); auto.
      intros i Hi. apply R0. lia. }
    fold R.
    assert (Pn : (pb npub < length mm)%nat) by (apply (has_pb mm npub Nn); auto; destruct Nn; discriminate).
    assert (Hn1 : forall bs, (length bs <= 40)%nat -> has (putp M0 se bs) npub Nn).
    { intros bs Hb. apply has_putp_disj; auto.
      - intros i Hi. apply R0. lia.
      - apply disj_blocks. unfold se, Ma. cbn [pb]. rewrite app_length. lia. }
    assert (Rs : forall a b : list N, (length (a ++ b) <= 40)%nat -> room M0 se (length (a ++ b))) by (intros a b H i Hi; apply R0; lia).
    (* the nonce *)
    assert (Lw : forall i, (i < 2)%nat -> length (firstn 8 (skipn (8 * i) Nn)) = 8%nat) by (intros; rewrite firstn_length, skipn_length; lia).
    assert (Bw : forall i, bytes (firstn 8 (skipn (8 * i) Nn))) by (intros; now apply bytes_firstn, bytes_skipn).
    assert (Ww : forall i, (i < 2)%nat -> le_word (firstn 8 (skipn (8 * i) Nn)) < 2 ^ 64).
    { intros i Hi. pose proof (le_word_lt _ (Bw i)) as H. now rewrite Lw in H. }
    assert (Ld : forall Mx i, (i < 2)%nat -> has Mx npub Nn ->
      runs (RefIsap.load_ull cf (padd npub (8 * N.of_nat i))) Mx (le_word (firstn 8 (skipn (8 * i) Nn))) Mx).
    { intros Mx i Hi Hx. apply runs_load_ull; auto.
      rewrite word_le_le_word by auto. replace (8 * N.of_nat i) with (N.of_nat (8 * i)) by lia. apply has_firstn. now apply has_skipn. }
    eapply runs_bind; [apply (Ld _ 0%nat); [lia|]; apply Hn1; lia|].
    set (b1 := firstn 24 R ++ firstn 8 (skipn (8 * 0) Nn)).
    apply (runs_bind _ _ _ tt (putp M0 se b1)).
    { eapply runs_eq; [apply runs_store_ull|reflexivity|].
      - apply room_putp; [intros i Hi; apply R0; lia|]. apply (room_sub M0 se 40 24); auto. lia.
      - apply AL.
      - rewrite word_le_le_word by auto. unfold b1. rewrite <- putp_app_bytes; [now rewrite LR|].
        apply Rs. rewrite app_length, LR, Lw; lia. }
    assert (Lb1 : length b1 = 32%nat) by (unfold b1; rewrite app_length, LR, Lw; lia).
    eapply runs_bind; [apply (Ld _ 1%nat); [lia|]; apply Hn1; lia|].
    assert (Eb : b1 ++ firstn 8 (skipn (8 * 1) Nn) = s0).
    { unfold b1, s0, estA. fold R. rewrite <- app_assoc. f_equal. rewrite skipn_O, <- firstn_plus. apply firstn_all2. lia. }
    apply (runs_bind _ _ _ tt (Ma ++ [map Some s0])).
    { eapply runs_eq; [apply runs_store_ull|reflexivity|].
      - apply room_putp; [intros i Hi; apply R0; lia|]. apply (room_sub M0 se 40 32); auto.
      - apply AL.
      - rewrite word_le_le_word by auto. rewrite <- (Put s0 (proj1 W0)), <- Eb, <- putp_app_bytes; [now rewrite Lb1|].
        rewrite Eb, (proj1 W0). exact R0. }
    set (M1 := Ma ++ [map Some s0]).
    assert (F1 : forall q bs, has mm q bs -> has M1 q bs) by (intros; now do 2 apply has_app).
    assert (Hs : has M1 se s0) by (unfold M1; rewrite <- (Put s0 (proj1 W0)); apply has_putp_same; rewrite (proj1 W0); exact R0).
    eapply runs_bind; [apply (r_load_word_at f avxa rounds_used cf avxa_ok Hcal M1 npub 0 Nn); auto; try (intros ?; apply AL); auto; lia|].
    eapply runs_bind; [apply (r_load_word_at f avxa rounds_used cf avxa_ok Hcal M1 npub 8 Nn); auto; try (intros ?; apply AL); auto; lia|].
    eapply runs_bind; [apply (r_load_word_at f avxa rounds_used cf avxa_ok Hcal M1 RefIsap.ISAP_IV_A 0 (Spec.iv_A IA)); auto; try (intros ?; apply AL); auto; cbn [Spec.iv_A Spec.iv length]; lia|].
    rewrite stf_init by auto.
    assert (Wz : wf40 (Spec.zpad IA (Nn ++ Spec.iv_A IA))).
    { apply wf_zpad40; [apply bytes_app; auto|rewrite app_length; cbn [Spec.iv_A Spec.iv length]; lia]. }
    eapply runs_bind; [now apply r_P12A|].
    set (s1 := ascon_p 12 _). assert (W1 : wf40 s1) by now apply wf40_ascon.
    eapply runs_bind; [apply (r_absorbA cf UL Hcal M1 ad A s1); auto; intros ?; apply AL|].
    eapply runs_bind; [apply (stf_load cf Hcal Hlax M1 se s0 Hs W0 0); lia|].
    eapply runs_bind; [apply (stf_load cf Hcal Hlax M1 se s0 Hs W0 1); lia|].
    eapply runs_bind; [apply (stf_load cf Hcal Hlax M1 se s0 Hs W0 2); lia|].
    eapply runs_bind; [apply (stf_load cf Hcal Hlax M1 se s0 Hs W0 3); lia|].
    eapply runs_bind; [apply (stf_load cf Hcal Hlax M1 se s0 Hs W0 4); lia|].
    rewrite stf_list, s64_nat by auto.
    assert (RcT : room mm c (length T)) by (intros i Hi; apply Rc; lia).
    assert (Rc1 : room M1 c (length T)) by now do 2 apply room_app.
    replace (Lst _ _ _ _ _ _) with (L_ K Nn A T s1 0) by (unfold L_; f_equal; lia).
    apply runs_assoc. eapply runs_bind.
    { exact (r_loop UL K Nn A T M1 mp c LK LN BK BN BA BT (F1 _ _ HT) Rc1 Hf L63 Lt s1 W1). }
    fold ct. set (M2 := putp M1 c ct).
    assert (HC2 : has M2 c ct) by (apply has_putp_same; now rewrite Lct).
    eapply runs_bind.
    { apply (r_tail UL K Nn A T c LK LN BK BN BA BT L63 Lt s1 W1 M2 HC2). }
    cbn [fst snd].
    change (absA (xorp (absA s1 _) _) _) with s.
    assert (Pk : (pb k < length mm)%nat) by (apply (has_pb mm k K); auto; destruct K; discriminate).
    assert (Pt : (pb c < length mm)%nat) by (apply (room_pb mm c (length T + 16)); auto; lia).
    assert (Pi : (1 < length mm)%nat) by (apply (has_pb mm RefIsap.ISAP_IV_KA (Spec.iv_KA IA)); auto; discriminate).
    eapply runs_eq; [apply (r_finishA cf Hcal Hlax M2 sm k (padd c (N.of_nat (length T))) K s); auto|reflexivity|].
    - apply has_putp_disj; [now rewrite Lct|auto|]. rewrite Lct, LK. eapply disj_sub; [exact Dk|lia|lia].
    - apply has_putp_disj; [now rewrite Lct|auto|]. apply disj_blocks. cbn [RefIsap.ISAP_IV_KA pb]. cbn [length csA ref_consts] in Pc. lia.
    - apply room_putp; [now rewrite Lct|]. apply room_app. apply room_of_le. unfold sm, Ma. cbn [pb po]. rewrite blk_mid, uninit_length. lia.
    - apply room_putp; [now rewrite Lct|]. do 2 apply room_app. apply (room_sub mm c (length T + 16)); [exact Rc|lia].
    - apply disj_blocks. cbn [sm pb]. lia.
    - apply disj_blocks. cbn [sm pb RefIsap.ISAP_IV_KA]. lia.
    - apply disj_blocks. cbn [sm pb padd]. lia.
    - set (tg := firstn 16 (ascon_p 12 (kstA K s))).
      assert (Ltg : length tg = 16%nat) by (unfold tg; rewrite firstn_length, (proj1 (wf40_ascon 12 _ WK)); reflexivity).
      assert (E2 : M2 = (putp mm c ct ++ [uninit 40]) ++ [map Some s0]).
      { unfold M2, M1, Ma. rewrite putp_app by (rewrite Lct; now apply room_app). f_equal. apply putp_app. now rewrite Lct. }
      assert (E3 : putp M2 sm (kstA K s) = (putp mm c ct ++ [map Some (kstA K s)]) ++ [map Some s0]).
      { rewrite E2. rewrite putp_app.
        - f_equal. unfold sm, putp at 1, put. cbn [pb po]. rewrite <- (putp_length mm c ct). rewrite blk_mid, upd_mid.
          change (N.to_nat 0) with 0%nat. do 2 f_equal. apply splice_all. now rewrite map_length, uninit_length, (proj1 WK).
        - rewrite (proj1 WK). apply room_of_le. unfold sm. cbn [pb po]. rewrite <- (putp_length mm c ct), blk_mid, uninit_length. lia. }
      rewrite E3. 
      assert (Rt : room (putp mm c ct) (padd c (N.of_nat (length T))) (length tg)).
      { apply room_putp; [now rewrite Lct|]. rewrite Ltg. apply (room_sub mm c (length T + 16)); [exact Rc|lia]. }
      rewrite putp_app by now apply room_app. f_equal. rewrite putp_app by auto. f_equal.
      rewrite <- Lct. rewrite putp_app_bytes by (rewrite app_length, Lct, Ltg; exact Rc).
      unfold Spec.isap_encrypt. cbv zeta. fold ct. rewrite macA_eq. reflexivity.
  Qed.
End MacEnc.
