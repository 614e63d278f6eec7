(* The states on which isap_mac_enc of isapa128av20/avx_512 permutes. Proofs only, apart from auxiliary notions: the proofs of AvxAEnc.v once more,
   with the record of the device of AvxAProbe.v. *)
From Verif Require Import Base Prog Poly SpecPerm Words AsconProof Mem Vocab Vocab2 MemProof RefLib Sponge RefProof RefAead SpecFacts Trace.
From Verif Require Import Api ApiProof OptPerm OptRep OptPermProof OptIsap OptLanes OptProof A128Perm A128PermProof A128Proof AvxA AvxAProof AvxAEnc.
From Verif Require Import VocabProbe VocabOptProbe ProbeProof OptProbeProof A128ProbeProof VocabAvxProbe AvxAProbeProof.
From Verif Require Spec RefIsap OptProbe AvxAProbe.
Import Spec(xorp, xorz).
Open Scope N_scope.
Open Scope cm_scope.

Notation f := f_id.
Notation pE := (ascon_p 6).

Lemma seen_v_app leak x y : seen_v leak (x ++ y) = seen_v leak x ++ seen_v leak y.
Proof. unfold seen_v. now rewrite map_app, concat_app. Qed.
Lemma seen_v_ones leak x : seen_v leak (ones x) = seen leak x.
Proof. unfold seen_v, ones, seen. now rewrite map_map. Qed.
Lemma ones_app x y : ones (x ++ y) = ones x ++ ones y.
Proof. apply map_app. Qed.

(* ---------- parts that do not permute ---------- *)

Lemma silent_text_word m o n : silent (text_word m o n).
Proof. unfold text_word. sil. Qed.
Lemma silent_put_text UL c v n o : silent (put_text UL c v n o).
Proof. unfold put_text. sil. Qed.
Lemma silent_mac_lane UL c r o : silent (mac_lane UL c r o).
Proof. unfold mac_lane. apply silent_for. intros i [? ?]. sil. Qed.
Lemma silent_ssub x y : silent (ssub x y).
Proof. unfold ssub. destruct (_ <? _)%Z; [apply silent_fail|apply silent_ret]. Qed.
Ltac siv := repeat first [apply silent_text_word | apply silent_put_text | apply silent_mac_lane | apply silent_ssub | progress sil].

(* ---------- half of the twelve rounds ---------- *)

Lemma fold_words cs : forall ws, words5 ws -> words5 (fold_left (fun s c => ascon_round c s) cs ws).
Proof. induction cs as [|c cs IH]; intros ws W; auto. cbn [fold_left]. apply IH. apply ascon_lin_words. Qed.
Lemma lanes_half s : wf40 s -> lanes (half s) = fold_left (fun s c => ascon_round c s) (firstn 6 ascon_rc) (lanes s).
Proof.
  intros H. unfold half, lanes at 1. fold (lanes s).
  pose proof (fold_words (firstn 6 ascon_rc) _ (lanes_words s H)) as [H1 H2]. set (ws := fold_left _ _ _) in *.
  rewrite chunks_concat; [|lia|].
  - rewrite map_map. rewrite <- (map_id ws) at 2. apply map_ext_in.
    intros w Hw. apply be_word_word_be. rewrite Forall_forall in H2. apply (H2 w Hw).
  - apply Forall_map, Forall_forall. intros. apply word_be_length.
Qed.
Lemma wf_half s : wf40 s -> wf40 (half s).
Proof.
  intros H. pose proof (fold_words (firstn 6 ascon_rc) _ (lanes_words s H)) as [H1 H2]. unfold half. fold (lanes s). split.
  - rewrite (concat_length_const 8).
    + now rewrite map_length, H1.
    + apply Forall_map, Forall_forall. intros. apply word_be_length.
  - apply Forall_concat. apply Forall_map, Forall_forall. intros. apply bytes_word_be.
Qed.
Lemma avx_half s : wf40 s -> rounds ROUNDAVX 8 (map fst avx_first) (stf f s) = stf f (half s).
Proof.
  intros W. unfold stf. rewrite lanes_half by auto.
  assert (E : map fst avx_first = map (permw f) (firstn 6 ascon_rc)) by reflexivity.
  assert (F6 : Forall (fun c => c < 256) (firstn 6 ascon_rc)) by (repeat constructor).
  rewrite E, avx_rounds_same.
  2:{ apply Forall_map. eapply Forall_impl; [|exact F6]. intros; apply permw_w64. }
  2:{ destruct (lanes_words s W) as [L5 _]. split; [now rewrite map_length|]. apply Forall_map, Forall_forall. intros w _. apply permw_w64. }
  apply (rounds_ok f 8 round_avx ck_avx); [now apply lanes_words|exact F6].
Qed.

(* ---------- the list of calls ---------- *)

(* The state the hash permutes next to round i of the loop. *)
Definition xi (K Nn A T s1 : list N) (i : nat) : list N :=
  match i with
  | O => preA s1 A
  | S j => let ct := Spec.isap_enc IA K Nn T in
           xorp (mk (xorp (absA s1 (chunks 8 (Spec.pad 8 A))) (repeat 0 39 ++ [1])) ct j) (next_lane (skipn (8 * j) ct))
  end.
Definition pl (K Nn A T s1 : list N) (i : nat) : list vcall :=
  [both (iter pE (2 * i) (estA K Nn)) (xi K Nn A T s1 i); both (iter pE (S (2 * i)) (estA K Nn)) (half (xi K Nn A T s1 i))].
Definition pls K Nn A T s1 (n : nat) : list vcall := concat (map (pl K Nn A T s1) (seq 0 n)).

Lemma pairs_pl K Nn A T s1 n : forall i m, (n <= m)%nat ->
  pairs (stream IA (iter pE (2 * i) (estA K Nn)) (2 * n)) (map (fun j => (xi K Nn A T s1 j, 12%nat)) (seq i m)) =
  concat (map (pl K Nn A T s1) (seq i n)).
Proof.
  induction n as [|n IH]; intros i m H; [reflexivity|].
  replace (2 * S n)%nat with (S (S (2 * n))) by lia. destruct m as [|m]; [lia|].
  specialize (IH (S i) m ltac:(lia)). replace (2 * S i)%nat with (S (S (2 * i))) in IH by lia.
  cbn [seq map concat]. rewrite <- IH. reflexivity.
Qed.

Lemma absorbA_mk s ct : absorb_in IA s (chunks 8 (Spec.pad 8 ct)) =
  map (fun j => (xorp (mk s ct j) (next_lane (skipn (8 * j) ct)), 12%nat)) (seq 0 (S (length ct / 8))).
Proof.
  assert (G : forall k, (k <= length ct / 8)%nat -> absorb_in IA s (chunks 8 (firstn (8 * k) ct)) =
    map (fun j => (xorp (mk s ct j) (next_lane (skipn (8 * j) ct)), 12%nat)) (seq 0 k)).
  { induction k as [|k IH]; intros Hk; [rewrite Nat.mul_0_r, firstn_O, chunks_nil; reflexivity|].
    rewrite absorbA_S by lia. rewrite IH by lia. rewrite seq_S, map_app. cbn [map Nat.add]. do 4 f_equal.
    - unfold mk. now replace (k <=? length ct / 8)%nat with true by lia.
    - rewrite next_lane_full; auto. rewrite skipn_length. lia. }
  rewrite absorbA_last. unfold fullA. rewrite G by lia. rewrite seq_S, map_app. cbn [map Nat.add]. do 3 f_equal.
  unfold preA, mk. cbv zeta. replace (_ <=? _)%nat with true by lia.
  rewrite next_lane_part by (rewrite skipn_length; lia).
  set (y := skipn _ ct). change (0x80 :: repeat 0 (7 - length y)) with ([0x80] ++ repeat 0 (7 - length y)).
  now rewrite app_assoc, xorp_zeros.
Qed.

Lemma absorb_in_length I s bs : length (absorb_in I s bs) = length bs.
Proof. revert s. induction bs as [|b bs IH]; intros s; cbn [absorb_in length]; auto. Qed.

Lemma fullA_length s x : length (fullA s x) = (length x / 8)%nat.
Proof.
  unfold fullA. rewrite absorb_in_length.
  assert (G : forall k, (8 * k <= length x)%nat -> length (chunks 8 (firstn (8 * k) x)) = k).
  { induction k as [|k IH]; intros Hk; [rewrite Nat.mul_0_r, firstn_O, chunks_nil; reflexivity|].
    rewrite chunks_firstn_S by lia. rewrite app_length, IH by lia. cbn [length]. lia. }
  apply G. lia.
Qed.

Lemma hash_in_eq K Nn A T : length K = 16%nat -> length Nn = 16%nat -> bytes K -> bytes Nn ->
  let s1 := ascon_p 12 (Spec.zpad IA (Nn ++ Spec.iv_A IA)) in
  hash_in IA Nn A (Spec.isap_enc IA K Nn T) =
  ([(Spec.zpad IA (Nn ++ Spec.iv_A IA), 12%nat)] ++ fullA s1 A) ++ map (fun j => (xi K Nn A T s1 j, 12%nat)) (seq 0 (length T / 8 + 2)).
Proof.
  intros LK LN BK BN s1. unfold hash_in. change (Spec.i_rate IA) with 8%nat. rewrite absorbA_last, absorbA_mk.
  rewrite lct by auto. replace (length T / 8 + 2)%nat with (S (S (length T / 8))) by lia. set (n := S (length T / 8)).
  rewrite <- !app_assoc. cbn [app]. apply (f_equal (cons _)). apply (f_equal (app _)).
  cbn [app seq map]. apply (f_equal (cons _)).
  rewrite <- (seq_shift n), map_map. reflexivity.
Qed.

Lemma skipn_seq_ n : forall i m, skipn n (seq i m) = seq (i + n) (m - n).
Proof.
  induction n as [|n IH]; intros i m; [now rewrite Nat.add_0_r, Nat.sub_0_r|].
  destruct m as [|m]; [reflexivity|]. cbn [seq skipn Nat.sub]. rewrite IH. f_equal. lia.
Qed.

Lemma enc_in_eq K Nn A T : length K = 16%nat -> length Nn = 16%nat -> bytes K -> bytes Nn ->
  let s1 := ascon_p 12 (Spec.zpad IA (Nn ++ Spec.iv_A IA)) in let s := mac_st Nn A (Spec.isap_enc IA K Nn T) in
  avx_enc_in K Nn A T =
  ones (rk_in IA K (Spec.iv_KE IA) Nn) ++ ones [(Spec.zpad IA (Nn ++ Spec.iv_A IA), 12%nat)] ++ ones (fullA s1 A) ++
  pls K Nn A T s1 (n_body T) ++ ones (map (fun j => (xi K Nn A T s1 j, 12%nat)) (seq (n_body T) (length T / 8 + 2 - n_body T))) ++
  ones (rk_in IA K (Spec.iv_KA IA) (firstn 16 s) ++ [(kstA K s, 12%nat)]).
Proof.
  intros LK LN BK BN s1 s. unfold avx_enc_in. cbv zeta.
  pose proof (hash_in_eq K Nn A T LK LN BK BN) as E. cbv zeta in E. fold s1 in E. rewrite E. clear E.
  set (h0 := [(Spec.zpad IA (Nn ++ Spec.iv_A IA), 12%nat)] ++ fullA s1 A).
  assert (L0 : length h0 = S (length A / 8)) by (unfold h0; rewrite app_length, fullA_length; reflexivity).
  rewrite <- L0. rewrite firstn_app, firstn_all, Nat.sub_diag, firstn_O, app_nil_r.
  rewrite skipn_app, skipn_all, Nat.sub_diag, skipn_O. cbn [app].
  rewrite skipn_app, (@skipn_all2 _ _ h0) by lia. replace (length h0 + _ - length h0)%nat with (avx_rounds_n (length T)) by lia. cbn [app].
  change (avx_rounds_n (length T)) with (n_body T).
  assert (Hn : (n_body T <= length T / 8 + 2)%nat) by (unfold n_body; lia).
  assert (Ep := pairs_pl K Nn A T s1 (n_body T) 0 (length T / 8 + 2) Hn). cbn [Nat.mul iter] in Ep.
  change (Spec.isap_rk IA K (Spec.iv_KE IA) Nn 24 ++ Nn) with (estA K Nn).
  unfold pls. rewrite <- Ep. rewrite ones_app. unfold h0. rewrite ones_app, <- !app_assoc. do 4 (apply (f_equal (app _))).
  rewrite skipn_map, skipn_seq_, ones_app. reflexivity.
Qed.

(* ---------- the code ---------- *)

Section Loop.
  Variables (UL : N) (leak : state -> N).
  Notation note := (OptProbe.record leak).
  Notation sn := (seen (fun s => leak (held avxa s))).
  Notation sv := (seen_v (fun s => leak (held avxa s))).

  Lemma l_vperm cs e x (m : mem) : wf40 e -> wf40 x ->
    logs (AvxAProbe.vperm note cs (stf f e, stf f x)) m (vrounds cs (stf f e, stf f x)) m (sv [both e x]).
  Proof.
    intros We Wx t. unfold AvxAProbe.vperm, OptProbe.record, bind, emit. cbn [smem strc fst snd]. unfold ret.
    eexists. split; [reflexivity|]. rewrite !perms_cons, <- !app_assoc. unfold seen_v. cbn [map concat app].
    now rewrite !(held_stf f avxa rounds_used leak avxa_ok).
  Qed.

  Variables (K Nn A T : list N) (M : mem) (mp c : ptr).
  Notation len := (length T).
  Notation est := (estA K Nn).
  Notation ct := (Spec.isap_enc IA K Nn T).
  Hypothesis LK : length K = 16%nat. Hypothesis LN : length Nn = 16%nat.
  Hypothesis BK : bytes K. Hypothesis BN : bytes Nn. Hypothesis BA : bytes A. Hypothesis BT : bytes T.
  Hypothesis HT : has M mp T. Hypothesis Rc : room M c len. Hypothesis Hf : fwd_ok c mp len.
  Hypothesis L63 : N.of_nat len < 2 ^ 63. Hypothesis LUL : N.of_nat len < 2 ^ UL.
  Variable s1 : list N.
  Hypothesis W1 : wf40 s1.
  Notation s2 := (absA s1 (chunks 8 (Spec.pad 8 A))).
  Notation sd := (xorp s2 (repeat 0 39 ++ [1])).
  Notation lct := (AvxAEnc.lct K Nn T LK LN BK BN).
  Notation bct := (AvxAEnc.bct K Nn T LK LN BK BN BT).
  Notation wf_it := (AvxAEnc.wf_it K Nn LK LN BK BN).
  Notation wf_s2 := (AvxAEnc.wf_s2 A BA s1 W1).
  Notation wf_sd := (AvxAEnc.wf_sd A BA s1 W1).
  Notation mac_i := (AvxAEnc.mac_i K Nn A T s1).
  Notation L_ := (AvxAEnc.L_ K Nn A T s1).
  Notation wf_mac_i := (AvxAEnc.wf_mac_i K Nn A T LK LN BK BN BA BT s1 W1).
  Notation mac_step := (AvxAEnc.mac_step UL K Nn A T LK LN BK BN L63 LUL s1).
  Notation room_c := (AvxAEnc.room_c UL K Nn T M c LK LN Rc L63 LUL).
  Notation n_body := (AvxAEnc.n_body T).
  Notation n_body_in := (AvxAEnc.n_body_in UL K Nn T LK LN L63 LUL).
  Notation n_body_mac := (AvxAEnc.n_body_mac UL K Nn T LK LN L63 LUL).
  Notation n_body_pos := (AvxAEnc.n_body_pos UL K Nn T LK LN L63 LUL).
  Notation n_body_end := (AvxAEnc.n_body_end UL K Nn T LK LN L63 LUL).
  Notation xi := (xi K Nn A T s1).
  Notation pl := (pl K Nn A T s1).
  Notation pls := (pls K Nn A T s1).

  Lemma l_body i : (i = 0 \/ 16 * i < len)%nat ->
    logs (AvxAProbe.mac_enc_body UL note c mp (N.of_nat len) (L_ i)) (putp M c (firstn (16 * i) ct)) (L_ (S i)) (putp M c (firstn (16 * S i) ct)) (sv (pl i)).
  Proof.
    intros Hi. set (R := L_ (S i)). unfold AvxAProbe.mac_enc_body, AvxAEnc.L_. cbn [AvxA.l_enc l_ienc l_mac l_imac l_v l_dom].
    assert (Lct := lct). assert (Bct := bct). assert (Wmi := wf_mac_i). assert (Wit := wf_it). assert (Ws2 := wf_s2). assert (Rcc := room_c). assert (Hi' : (16 * i <= len)%nat) by lia.
    replace (Z.of_nat len - 16 * Z.of_nat i)%Z with (Z.of_nat (len - 16 * i)) by lia.
    replace (Nat.min (16 * i) len) with (16 * i)%nat by lia.
    rewrite zu64_nat by lia.
    set (n1 := Nat.min 8 (len - 8 * (2 * i))). set (n2 := Nat.min 8 (len - 8 * S (2 * i))).
    set (M0 := putp M c (firstn (16 * i) ct)).
    apply (logs_step _ _ _ (N.of_nat n1) M0); [|siv|].
    { apply runs_if. destruct (Z.leb_spec 8 (Z.of_nat (len - 16 * i))); (eapply runs_eq; [apply runs_ret| |reflexivity]); lia. }
    apply (logs_step _ _ _ (N.of_nat n2) M0); [|siv|].
    { rewrite sub64_small by lia. apply runs_if. destruct (N.leb_spec 8 (N.of_nat (len - 16 * i) - N.of_nat n1)).
      - eapply runs_eq; [apply runs_ret| |reflexivity]; lia.
      - apply runs_if. destruct (N.ltb_spec (N.of_nat n1) 8); (eapply runs_eq; [apply runs_ret| |reflexivity]); lia. }
    assert (HR : has M0 (padd mp (N.of_nat (16 * i))) (firstn (len - 16 * i) (skipn (16 * i) T))).
    { apply next_t; auto. lia. }
    set (x1 := firstn n1 (skipn (8 * (2 * i)) T)). set (x2 := firstn n2 (skipn (8 * S (2 * i)) T)).
    assert (Lx1 : length x1 = n1) by (unfold x1; rewrite firstn_length, skipn_length; lia).
    assert (Lx2 : length x2 = n2) by (unfold x2; rewrite firstn_length, skipn_length; lia).
    assert (Bx1 : bytes x1) by now apply bytes_firstn, bytes_skipn.
    assert (Bx2 : bytes x2) by now apply bytes_firstn, bytes_skipn.
    rewrite firstn_all2 in HR by (rewrite skipn_length; lia).
    apply (logs_step _ _ _ (le_word x1) M0); [|siv|].
    { rewrite <- Lx1 at 1. apply r_text_word; auto; try lia. unfold x1. replace (8 * (2 * i))%nat with (16 * i)%nat by lia.
      now apply has_firstn. }
    apply (logs_step _ _ _ (le_word x2) M0); [|siv|].
    { rewrite u64_small by lia. rewrite <- Lx2 at 1. apply r_text_word; auto; try lia.
      destruct (Nat.eqb_spec n1 8) as [E|E].
      - rewrite E, <- padd_padd. unfold x2. apply has_firstn.
        pose proof (has_skipn M0 _ _ 8 HR) as H8. rewrite skipn_plus in H8.
        now replace (8 * S (2 * i))%nat with (16 * i + 8)%nat by lia.
      - replace x2 with (@nil N) by (destruct x2; auto; cbn [length] in Lx2; lia). intros j Hj. cbn [length] in Hj. lia. }
    set (lane := match i with O => repeat 0 8 | S j => next_lane (skipn (8 * j) ct) end).
    assert (Bl : bytes lane) by (destruct i; [apply bytes_repeat; lia|apply next_lane_bytes, bytes_skipn, Bct]).
    assert (Ll : length lane = 8%nat) by (destruct i; [apply repeat_length|apply next_lane_length]).
    apply (logs_step _ _ _ (permw f (be_word lane), (Z.of_nat len - 8 * Z.of_nat (S i - 1))%Z, N.of_nat (8 * (S i - 1))) M0); [|siv|].
    { apply runs_if. destruct i as [|j].
      - replace (N.of_nat (len - 16 * 0) <? N.of_nat len) with false by lia. eapply runs_eq; [apply runs_ret| |reflexivity].
        reflexivity.
      - replace (N.of_nat (len - 16 * S j) <? N.of_nat len) with true by lia.
        replace (S j - 1)%nat with j by lia. replace (S (S j) - 1)%nat with (S j) by lia.
        set (y := skipn (8 * j) ct). assert (Ly : length y = (len - 8 * j)%nat) by (unfold y; rewrite skipn_length; lia).
        replace (Z.of_nat len - 8 * Z.of_nat j)%Z with (Z.of_nat (length y)) by lia.
        assert (H0 : has M0 c (firstn (16 * S j) ct)) by (apply has_putp_same, room_c; lia).
        eapply runs_bind.
        { apply r_mac_lane; try lia; [|apply bytes_skipn, Bct].
          pose proof (has_skipn M0 _ _ (8 * j) H0) as H1. apply (has_firstn _ _ _ 8) in H1.
          replace (firstn 8 y) with (firstn 8 (skipn (8 * j) (firstn (16 * S j) ct))); auto.
          unfold y. rewrite skipn_firstn_comm, firstn_firstn. f_equal. lia. }
        eapply runs_bind.
        { unfold ssub. replace (_ <? _)%Z with false by lia. apply runs_ret. }
        eapply runs_eq; [apply runs_ret| |reflexivity]. cbn [fst snd].
        rewrite (lane_in f avxa rounds_used lane avxa_ok Bl Ll : U64TOWORD avxa (le_word (next_lane y)) = _).
        f_equal; [f_equal|]; lia. }
    cbv beta iota. unfold vxor at 1. cbn [fst snd]. rewrite setx_0.
    rewrite stf_blk by auto.
    set (E0 := iter pE (2 * i) est).
    assert (Wx : wf40 (xorp (mac_i i) lane)) by (apply wf40_xorp; auto).
    assert (Exi : xorp (mac_i i) lane = xi i).
    { unfold lane, xi. destruct i as [|j]; [|reflexivity]. rewrite <- (app_nil_l (repeat 0 8)), xorp_zeros. cbn [AvxAEnc.mac_i].
      now destruct (preA s1 A). }
    assert (Wxi : wf40 (xi i)) by now rewrite <- Exi.
    rewrite Exi. unfold pl.
    eapply (logs_bind _ _ _ _ _ (sv [both E0 (xi i)]) _ _ (sv [both (iter pE (S (2 * i)) est) (half (xi i))])); [apply l_vperm; [apply Wit|exact Wxi]| |reflexivity].
    unfold vrounds. cbn [fst snd]. rewrite (avx_e0 avx_first) by (first [apply Wit|left; reflexivity]).
    rewrite avx_half by exact Wxi.
    change (pE E0) with (iter pE (S (2 * i)) est).
    eapply logs_last; [apply l_vperm; [apply Wit|now apply wf_half]| |siv].
    unfold vrounds. cbn [fst snd]. rewrite (avx_e0 avx_second) by (first [apply Wit|right; left; reflexivity]).
    rewrite <- avx_half, avx_e1 by auto. rewrite <- Exi.
    change (pE (iter pE (S (2 * i)) est)) with (iter pE (S (S (2 * i))) est).
    set (v1 := N.lxor _ (le_word x1)). set (v2 := N.lxor _ (le_word x2)).
    assert (C1 : firstn n1 (word_le 8 v1) = firstn n1 (skipn (8 * (2 * i)) ct)) by exact (ct_lane K Nn T (2 * i) LK LN BK BN BT).
    assert (C2 : firstn n2 (word_le 8 v2) = firstn n2 (skipn (8 * S (2 * i)) ct)) by exact (ct_lane K Nn T (S (2 * i)) LK LN BK BN BT).
    assert (F1 : firstn (16 * i + n1) ct = firstn (16 * i) ct ++ firstn n1 (word_le 8 v1)).
    { rewrite C1, firstn_plus. do 3 f_equal. lia. }
    assert (F2 : firstn (16 * i + n1 + n2) ct = firstn (16 * i + n1) ct ++ firstn n2 (word_le 8 v2)).
    { rewrite C2, firstn_plus. f_equal. destruct (Nat.eqb_spec n2 0) as [->|]; [now rewrite !firstn_O|]. do 2 f_equal. lia. }
    assert (Lf1 : length (firstn (16 * i) ct) = (16 * i)%nat) by (rewrite firstn_length; lia).
    assert (Lf2 : length (firstn (16 * i + n1) ct) = (16 * i + n1)%nat) by (rewrite firstn_length; lia).
    apply (runs_bind _ _ _ (N.of_nat (16 * i + n1)) (putp M c (firstn (16 * i + n1) ct))).
    { eapply runs_eq; [apply r_put_text; try lia|reflexivity|].
      - apply room_putp; [apply Rcc; lia|]. apply (room_sub M c len); auto. lia.
      - rewrite F1, <- putp_app_bytes; [now rewrite Lf1|]. rewrite <- F1. apply Rcc. lia. }
    apply (runs_bind _ _ _ (N.of_nat (16 * i + n1 + n2)) (putp M c (firstn (16 * i + n1 + n2) ct))).
    { eapply runs_eq; [apply r_put_text; try lia|reflexivity|].
      - apply room_putp; [apply Rcc; lia|]. apply (room_sub M c len); auto. lia.
      - rewrite F2, <- putp_app_bytes; [now rewrite Lf2|]. rewrite <- F2. apply Rcc. lia. }
    eapply runs_bind.
    { unfold ssub. replace (_ <? _)%Z with false by lia. apply runs_ret. }
    eapply runs_eq; [apply runs_ret| |].
    - unfold R, AvxAEnc.L_. f_equal; try lia.
      + unfold vxor. cbn [fst snd].
        replace (2 * S i)%nat with (S (S (2 * i))) by lia. 
        assert (Em : ascon_p 12 (xorp (mac_i i) lane) = match i with O => s2 | S j => mac_i (S i) end).
        { rewrite <- (mac_step) by auto. unfold lane. destruct i as [|j]; [|reflexivity]. f_equal.
          rewrite <- (app_nil_l (repeat 0 8)). apply xorp_zeros. }
        rewrite Em. destruct i as [|j]; cbn [Nat.eqb fst snd]; rewrite !setx_0; auto.
        rewrite (stf_dom f avxa rounds_used) by (auto; exact avxa_ok). fold sd.
        f_equal.
      + destruct i; reflexivity.
    - f_equal. destruct (Nat.leb_spec len (16 * S i)).
      + rewrite !firstn_all2 by lia. reflexivity.
      + f_equal. lia.
  Qed.

  Lemma l_loop : logs (l <- AvxAProbe.mac_enc_body UL note c mp (N.of_nat len) (L_ 0) ;;
      while_ (S (N.to_nat (N.of_nat len / 16))) (fun l => 0 <? AvxA.l_enc l)%Z (AvxAProbe.mac_enc_body UL note c mp (N.of_nat len)) l) M
      (L_ n_body) (putp M c ct) (sv (pls n_body)).
  Proof.
    pose proof n_body_pos as P1. pose proof n_body_end as P2. pose proof n_body_in as P3. pose proof lct as Lct.
    replace (pls n_body) with (pl 0 ++ concat (map pl (seq 1 (n_body - 1)))).
    2:{ unfold pls. replace n_body with (S (n_body - 1)) at 2 by lia. reflexivity. }
    rewrite seen_v_app.
    eapply logs_bind; [|cbv beta|reflexivity].
    { pose proof (l_body 0 ltac:(now left)) as H. rewrite firstn_O, putp_nil in H. exact H. }
    apply (logs_while (fun j => L_ (S j)) (fun j => putp M c (firstn (16 * S j) ct)) (fun j => sv (concat (map pl (seq 1 j)))) (n_body - 1)).
    - unfold AvxAEnc.n_body. lia.
    - intros j Hj. assert (16 * S j < len)%nat by (apply P3; lia). split.
      + unfold AvxAEnc.L_. cbn [AvxA.l_enc]. lia.
      + exists (sv (pl (S j))). split; [apply l_body; now right|].
        rewrite seq_S, map_app, concat_app, seen_v_app. cbn [map concat]. now rewrite app_nil_r.
    - unfold AvxAEnc.L_. cbn [AvxA.l_enc]. lia.
    - reflexivity.
    - reflexivity.
    - reflexivity.
    - f_equal. lia.
    - rewrite firstn_all2 by lia. reflexivity.
    - reflexivity.
  Qed.

  (* The rest of the ciphertext is authenticated. *)
  Lemma l_tail (M' : mem) : has M' c ct ->
    logs (while_ (S (S (N.to_nat (N.of_nat len / 8)))) (fun st => 0 <=? snd (fst st))%Z (AvxAProbe.mac_rest UL note c)
                 (snd (l_v (L_ n_body)), l_mac (L_ n_body), l_imac (L_ n_body))) M'
         (stf f (absA sd (chunks 8 (Spec.pad 8 ct))), Z.of_nat len - 8 * Z.of_nat (S (len / 8)), N.of_nat len)%Z M'
         (sn (map (fun j => (xi j, 12%nat)) (seq n_body (len / 8 + 2 - n_body)))).
  Proof.
    intros Hc. pose proof n_body_pos as P1. pose proof n_body_mac as P2. pose proof lct as Lct.
    set (b := (n_body - 1)%nat) in *.
    apply (logs_while (fun j => (stf f (mk sd ct (b + j)), Z.of_nat len - 8 * Z.of_nat (b + j), N.of_nat (Nat.min (8 * (b + j)) len))%Z)
             (fun _ => M') (fun j => sn (map (fun j => (xi j, 12%nat)) (seq n_body j))) (S (len / 8) - b)).
    - lia.
    - intros j Hj. cbn [fst snd]. split; [lia|]. exists (sn [(xi (S (b + j)), 12%nat)]). split.
      2:{ rewrite seq_S, map_app, seen_app. cbn [map]. do 5 f_equal. lia. }
      set (y := skipn (8 * (b + j)) ct).
      assert (Ly : length y = (len - 8 * (b + j))%nat) by (unfold y; rewrite skipn_length; lia).
      unfold AvxAProbe.mac_rest.
      replace (Z.of_nat len - 8 * Z.of_nat (b + j))%Z with (Z.of_nat (length y)) by lia.
      replace (Nat.min (8 * (b + j)) len) with (8 * (b + j))%nat by lia.
      eapply logs_step; [|siv|].
      { apply r_mac_lane; try lia; [|apply bytes_skipn, bct]. apply has_firstn. now apply has_skipn. }
      cbn [fst snd].
      assert (Wm : wf40 (mk sd ct (b + j))) by (apply wf_mk; [exact wf_sd|exact bct]).
      assert (By : bytes (next_lane y)) by (apply next_lane_bytes, bytes_skipn, bct).
      rewrite (lane_in f avxa rounds_used _ avxa_ok) by (auto using next_lane_length).
      rewrite stf_blk by (auto using next_lane_length).
      eapply logs_last; [cbn [xi]; fold y; apply l_P12A; apply wf40_xorp; auto| |siv].
      eapply runs_bind.
      { unfold ssub. replace (_ <? _)%Z with false by lia. apply runs_ret. }
      eapply runs_eq; [apply runs_ret| |reflexivity].
      unfold y. rewrite mk_S by (rewrite Lct; lia). fold y.
      rewrite <- Nat.add_succ_r. f_equal; [f_equal; lia|lia].
    - cbn [fst snd]. lia.
    - reflexivity.
    - unfold AvxAEnc.L_. cbn [l_v l_mac l_imac snd]. rewrite Nat.add_0_r.
      destruct n_body as [|n] eqn:E; [lia|]. cbn [AvxAEnc.mac_i]. replace b with n by lia. f_equal; [f_equal; lia|lia].
    - reflexivity.
    - f_equal; [f_equal|]; try lia.
      unfold mk. replace (_ <=? _)%nat with false by lia. reflexivity.
    - reflexivity.
    - do 3 f_equal. lia.
  Qed.
End Loop.

Section MacEnc.
  Variables (cf : cfg) (UL : N) (leak : state -> N).
  Notation note := (OptProbe.record leak).
  Notation sn := (seen (fun s => leak (held avxa s))).
  Notation sv := (seen_v (fun s => leak (held avxa s))).
  Hypothesis Hcal : forall i, (i < 4)%nat -> al8 cf (P i 0).
  Hypothesis Hlax : strict cf = false.

  (* The length of the associated data enters only modulo 2^UL. *)
  Lemma l_mac_enc mm k npub ad alen c mp K Nn A T :
    consts_ok csA mm -> bytes_at mm k K -> length K = 16%nat -> bytes_at mm npub Nn -> length Nn = 16%nat -> bytes_at mm ad A ->
    bytes_at mm mp T -> ulA UL alen = N.of_nat (length A) -> N.of_nat (length T) < 2 ^ UL -> N.of_nat (length T) < 2 ^ 63 ->
    room mm c (length T + 16) -> (length csA <= pb c)%nat ->
    disj c (length T + 16) k 16 -> fwd_ok c mp (length T) ->
    logs (AvxAProbe.isap_mac_enc UL cf note k npub ad alen c (N.of_nat (length T)) mp (N.of_nat (length T)) (padd c (N.of_nat (length T))))
      mm tt (putp mm c (Spec.isap_encrypt IA K Nn A T))
      (sv (avx_enc_in K Nn A T)).
  Proof.
    assert (AL : forall p, aligned cf p 8 = true) by (intros q; unfold aligned; now rewrite Hlax).
    intros Hc [BK Hk] LK [BN Hn] LN [BA HA] [BT HT] La Lt L63 Rc Pc Dk Hf.
    destruct (csA_ivs mm Hc) as (I1 & I2 & I3).
    assert (Bi : forall x, x = Spec.iv_A IA \/ x = Spec.iv_KE IA -> bytes x) by (intros x [->| ->]; apply bytes_ivA; lia).
    set (ct := Spec.isap_enc IA K Nn T). assert (Lct : length ct = length T) by now apply (v_enc_length A128A).
    assert (Bct : bytes ct) by now apply (v_enc_bytes A128A).
    set (s := mac_st Nn A ct). assert (W : wf40 s) by now apply wf_mac_st.
    assert (WK : wf40 (kstA K s)) by now apply wf_kstA.
    set (s0 := estA K Nn). assert (W0 : wf40 s0) by now apply wf_estA.
    set (R := rk_full K (Spec.iv_KE IA) Nn). assert (WR : wf40 R) by (apply wf_rk_full; auto).
    set (s1 := ascon_p 12 (Spec.zpad IA (Nn ++ Spec.iv_A IA))).
    rewrite enc_in_eq by auto. fold s1 ct s.
    rewrite !seen_v_app, !seen_v_ones.
    unfold AvxAProbe.isap_mac_enc. apply (logs_with_block _ _ _ _ _ (map Some (kstA K s))).
    set (Ma := mm ++ [uninit 40]). set (sm := P (length mm) 0).
    apply (logs_with_block _ _ _ _ _ (map Some s0)).
    set (M0 := Ma ++ [uninit 40]). set (se := P (length Ma) 0).
    assert (F0 : forall q bs, has mm q bs -> has M0 q bs) by (intros; now do 2 apply has_app).
    assert (R0 : room M0 se 40) by (apply room_of_le; unfold se, M0; cbn [pb po]; rewrite blk_mid, uninit_length; lia).
    assert (Put : forall bs, length bs = 40%nat -> putp M0 se bs = Ma ++ [map Some bs]).
    { intros bs Lb. unfold M0, se, putp, put. cbn [pb po]. rewrite blk_mid, upd_mid. change (N.to_nat 0) with 0%nat.
      do 2 f_equal. apply splice_all. now rewrite map_length, uninit_length. }
    assert (LR : length (firstn 24 R) = 24%nat) by (rewrite firstn_length, (proj1 WR); reflexivity).
    eapply logs_bind; [|cbv beta|reflexivity].
    { apply (l_isap_rkA cf leak Hcal M0 k RefIsap.ISAP_IV_KE npub se _ K (Spec.iv_KE IA) Nn 24); auto; try (intros ?; apply AL); auto.
      intros i Hi. apply R0. lia. }
    fold R.
    assert (Pn : (pb npub < length mm)%nat) by (apply (has_pb mm npub Nn); auto; destruct Nn; discriminate).
    assert (Hn1 : forall bs, (length bs <= 40)%nat -> has (putp M0 se bs) npub Nn).
    { intros bs Hb. apply has_putp_disj; auto.
      - intros i Hi. apply R0. lia.
      - apply disj_blocks. unfold se, Ma. cbn [pb]. rewrite app_length. lia. }
    assert (Rs : forall a b : list N, (length (a ++ b) <= 40)%nat -> room M0 se (length (a ++ b))) by (intros a b H i Hi; apply R0; lia).
    (* the nonce *)
    assert (Lw : forall i, (i < 2)%nat -> length (firstn 8 (skipn (8 * i) Nn)) = 8%nat) by (intros; rewrite firstn_length, skipn_length; lia).
    assert (Bw : forall i, bytes (firstn 8 (skipn (8 * i) Nn))) by (intros; now apply bytes_firstn, bytes_skipn).
    assert (Ww : forall i, (i < 2)%nat -> le_word (firstn 8 (skipn (8 * i) Nn)) < 2 ^ 64).
    { intros i Hi. pose proof (le_word_lt _ (Bw i)) as H. now rewrite Lw in H. }
    assert (Ld : forall Mx i, (i < 2)%nat -> has Mx npub Nn ->
      runs (RefIsap.load_ull cf (padd npub (8 * N.of_nat i))) Mx (le_word (firstn 8 (skipn (8 * i) Nn))) Mx).
    { intros Mx i Hi Hx. apply runs_load_ull; auto.
      rewrite word_le_le_word by auto. replace (8 * N.of_nat i) with (N.of_nat (8 * i)) by lia. apply has_firstn. now apply has_skipn. }
    eapply logs_step; [apply (Ld _ 0%nat); [lia|]; apply Hn1; lia|siv|].
    set (b1 := firstn 24 R ++ firstn 8 (skipn (8 * 0) Nn)).
    apply (logs_step _ _ _ tt (putp M0 se b1)); [|siv|].
    { eapply runs_eq; [apply runs_store_ull|reflexivity|].
      - apply room_putp; [intros i Hi; apply R0; lia|]. apply (room_sub M0 se 40 24); auto. lia.
      - apply AL.
      - rewrite word_le_le_word by auto. unfold b1. rewrite <- putp_app_bytes; [now rewrite LR|].
        apply Rs. rewrite app_length, LR, Lw; lia. }
    assert (Lb1 : length b1 = 32%nat) by (unfold b1; rewrite app_length, LR, Lw; lia).
    eapply logs_step; [apply (Ld _ 1%nat); [lia|]; apply Hn1; lia|siv|].
    assert (Eb : b1 ++ firstn 8 (skipn (8 * 1) Nn) = s0).
    { unfold b1, s0, estA. fold R. rewrite <- app_assoc. f_equal. rewrite skipn_O, <- firstn_plus. apply firstn_all2. lia. }
    apply (logs_step _ _ _ tt (Ma ++ [map Some s0])); [|siv|].
    { eapply runs_eq; [apply runs_store_ull|reflexivity|].
      - apply room_putp; [intros i Hi; apply R0; lia|]. apply (room_sub M0 se 40 32); auto.
      - apply AL.
      - rewrite word_le_le_word by auto. rewrite <- (Put s0 (proj1 W0)), <- Eb, <- putp_app_bytes; [now rewrite Lb1|].
        rewrite Eb, (proj1 W0). exact R0. }
    set (M1 := Ma ++ [map Some s0]).
    assert (F1 : forall q bs, has mm q bs -> has M1 q bs) by (intros; now do 2 apply has_app).
    assert (Hs : has M1 se s0) by (unfold M1; rewrite <- (Put s0 (proj1 W0)); apply has_putp_same; rewrite (proj1 W0); exact R0).
    eapply logs_step; [apply (r_load_word_at f avxa rounds_used cf avxa_ok Hcal M1 npub 0 Nn); auto; try (intros ?; apply AL); auto; lia|siv|].
    eapply logs_step; [apply (r_load_word_at f avxa rounds_used cf avxa_ok Hcal M1 npub 8 Nn); auto; try (intros ?; apply AL); auto; lia|siv|].
    eapply logs_step; [apply (r_load_word_at f avxa rounds_used cf avxa_ok Hcal M1 RefIsap.ISAP_IV_A 0 (Spec.iv_A IA)); auto; try (intros ?; apply AL); auto; cbn [Spec.iv_A Spec.iv length]; lia|siv|].
    rewrite stf_init by auto.
    assert (Wz : wf40 (Spec.zpad IA (Nn ++ Spec.iv_A IA))).
    { apply wf_zpad40; [apply bytes_app; auto|rewrite app_length; cbn [Spec.iv_A Spec.iv length]; lia]. }
    eapply logs_bind; [now apply l_P12A| |reflexivity].
    fold s1. assert (W1 : wf40 s1) by now apply wf40_ascon.
    eapply logs_bind; [apply (l_absorbA cf UL leak Hcal M1 ad A s1); auto; intros ?; apply AL| |reflexivity].
    eapply logs_step; [apply (stf_load cf Hcal Hlax M1 se s0 Hs W0 0); lia|siv|].
    eapply logs_step; [apply (stf_load cf Hcal Hlax M1 se s0 Hs W0 1); lia|siv|].
    eapply logs_step; [apply (stf_load cf Hcal Hlax M1 se s0 Hs W0 2); lia|siv|].
    eapply logs_step; [apply (stf_load cf Hcal Hlax M1 se s0 Hs W0 3); lia|siv|].
    eapply logs_step; [apply (stf_load cf Hcal Hlax M1 se s0 Hs W0 4); lia|siv|].
    rewrite stf_list, s64_nat by auto.
    assert (RcT : room mm c (length T)) by (intros i Hi; apply Rc; lia).
    assert (Rc1 : room M1 c (length T)) by now do 2 apply room_app.
    replace (Lst _ _ _ _ _ _) with (L_ K Nn A T s1 0) by (unfold L_; f_equal; lia).
    apply logs_assoc. eapply logs_bind; [|cbv beta|reflexivity].
    { exact (l_loop UL leak K Nn A T M1 mp c LK LN BK BN BA BT (F1 _ _ HT) Rc1 Hf L63 Lt s1 W1). }
    fold ct. set (M2 := putp M1 c ct).
    assert (HC2 : has M2 c ct) by (apply has_putp_same; now rewrite Lct).
    eapply logs_bind; [|cbv beta|reflexivity].
    { apply (l_tail UL leak K Nn A T c LK LN BK BN BA BT L63 Lt s1 W1 M2 HC2). }
    cbn [fst snd].
    change (absA (xorp (absA s1 _) _) _) with s.
    assert (Pk : (pb k < length mm)%nat) by (apply (has_pb mm k K); auto; destruct K; discriminate).
    assert (Pt : (pb c < length mm)%nat) by (apply (room_pb mm c (length T + 16)); auto; lia).
    assert (Pi : (1 < length mm)%nat) by (apply (has_pb mm RefIsap.ISAP_IV_KA (Spec.iv_KA IA)); auto; discriminate).
    eapply logs_eq; [apply (l_finishA cf leak Hcal Hlax M2 sm k (padd c (N.of_nat (length T))) K s); auto|reflexivity| |reflexivity].
    - apply has_putp_disj; [now rewrite Lct|auto|]. rewrite Lct, LK. eapply disj_sub; [exact Dk|lia|lia].
    - apply has_putp_disj; [now rewrite Lct|auto|]. apply disj_blocks. cbn [RefIsap.ISAP_IV_KA pb]. cbn [length csA ref_consts] in Pc. lia.
    - apply room_putp; [now rewrite Lct|]. apply room_app. apply room_of_le. unfold sm, Ma. cbn [pb po]. rewrite blk_mid, uninit_length. lia.
    - apply room_putp; [now rewrite Lct|]. do 2 apply room_app. apply (room_sub mm c (length T + 16)); [exact Rc|lia].
    - apply disj_blocks. cbn [sm pb]. lia.
    - apply disj_blocks. cbn [sm pb RefIsap.ISAP_IV_KA]. lia.
    - apply disj_blocks. cbn [sm pb padd]. lia.
    - set (tg := firstn 16 (ascon_p 12 (kstA K s))).
      assert (Ltg : length tg = 16%nat) by (unfold tg; rewrite firstn_length, (proj1 (wf40_ascon 12 _ WK)); reflexivity).
      assert (E2 : M2 = (putp mm c ct ++ [uninit 40]) ++ [map Some s0]).
      { unfold M2, M1, Ma. rewrite putp_app by (rewrite Lct; now apply room_app). f_equal. apply putp_app. now rewrite Lct. }
      assert (E3 : putp M2 sm (kstA K s) = (putp mm c ct ++ [map Some (kstA K s)]) ++ [map Some s0]).
      { rewrite E2. rewrite putp_app.
        - f_equal. unfold sm, putp at 1, put. cbn [pb po]. rewrite <- (putp_length mm c ct). rewrite blk_mid, upd_mid.
          change (N.to_nat 0) with 0%nat. do 2 f_equal. apply splice_all. now rewrite map_length, uninit_length, (proj1 WK).
        - rewrite (proj1 WK). apply room_of_le. unfold sm. cbn [pb po]. rewrite <- (putp_length mm c ct), blk_mid, uninit_length. lia. }
      rewrite E3. 
      assert (Rt : room (putp mm c ct) (padd c (N.of_nat (length T))) (length tg)).
      { apply room_putp; [now rewrite Lct|]. rewrite Ltg. apply (room_sub mm c (length T + 16)); [exact Rc|lia]. }
      rewrite putp_app by now apply room_app. f_equal. rewrite putp_app by auto. f_equal.
      rewrite <- Lct. rewrite putp_app_bytes by (rewrite app_length, Lct, Ltg; exact Rc).
      unfold Spec.isap_encrypt. cbv zeta. fold ct. rewrite macA_eq. reflexivity.
  Qed.
End MacEnc.
