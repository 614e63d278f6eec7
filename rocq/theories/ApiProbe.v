(* crypto_aead.c and what a device on the permutation records: the calls of isap_enc and isap_mac in the order of the code. Proofs only: the
   proof of ApiProof.v once more, with the record. *)
From Verif Require Import Base Prog SpecPerm Words Mem Vocab MemProof RefLib Sponge RefProof RefAead SpecFacts Trace.
From Verif Require Spec RefIsap ApiCode.
From Verif Require Import Api ApiProof VocabProbe ProbeProof.
Open Scope N_scope.
Open Scope cm_scope.

Lemma silent_store_ull cf p v : silent (RefIsap.store_ull cf p v).
Proof. apply silent_storen. Qed.

Section ApiLog.
  Variables (cf : cfg) (cs : list (list N)).
  Variable prek : ptr -> Prop.       (* condition on the pointers to key and nonce *)
  Variable prea : ptr -> nat -> Prop. (* condition on a pointer to that many bytes of text or associated data *)
  Variable okb : nat -> Prop.        (* condition on blocks for local arrays *)
  Variable lim : N.                  (* bound on the lengths of text and associated data *)
  Variable sl : nat -> nat.          (* sl n bytes must exist where n bytes are to be authenticated *)
  Variable enc : forall (k npub m : ptr) (mlen : N) (c : ptr), M unit.
  Variable mac : forall (k npub ad : ptr) (adlen : N) (c : ptr) (clen : N) (tag : ptr), M unit.
  (* what isap_enc and isap_mac compute *)
  Variable encf : list N -> list N -> list N -> list N.
  Variable macf : list N -> list N -> list N -> list N -> list N.
  (* what the device records *)
  Variable el : list N -> list N -> nat -> list N.
  Variable ml : list N -> list N -> list N -> list N -> list N.

  Definition enc_log : Prop := forall mm k npub m c K Nn T,
    consts_ok cs mm -> locs okb mm ->
    bytes_at mm k K -> length K = 16%nat -> bytes_at mm npub Nn -> length Nn = 16%nat -> bytes_at mm m T ->
    N.of_nat (length T) < lim -> (0 < length T)%nat ->
    room mm c (length T) -> (length cs <= pb c)%nat ->
    disj c (length T) k 16 -> disj c (length T) npub 16 -> fwd_ok c m (length T) ->
    prek k -> prek npub -> prea m (length T) -> prea c (length T) ->
    logs (enc k npub m (N.of_nat (length T)) c) mm tt (putp mm c (encf K Nn T)) (el K Nn (length T)).
  (* The tag goes right behind the ciphertext or into a local array. *)
  Definition mac_log : Prop := forall mm k npub ad c tag K Nn A C,
    consts_ok cs mm -> locs okb mm ->
    bytes_at mm k K -> length K = 16%nat -> bytes_at mm npub Nn -> length Nn = 16%nat -> bytes_at mm ad A ->
    bytes_at mm c C -> N.of_nat (length A) < lim -> N.of_nat (length C) < lim ->
    room mm tag 16 -> (length cs <= pb tag)%nat ->
    disj tag 16 k 16 -> disj tag 16 npub 16 -> disj tag 16 ad (length A) -> disj tag 16 c (length C) ->
    prek k -> prek npub -> prea ad (length A) -> prea c (length C) -> room mm ad (sl (length A)) -> room mm c (sl (length C)) ->
    logs (mac k npub ad (N.of_nat (length A)) c (N.of_nat (length C)) tag) mm tt
         (putp mm tag (macf K Nn A C)) (ml K Nn A C).

  Hypothesis Henc : enc_log.
  Hypothesis Hmac : mac_log.
  Hypothesis Hef : encf_ok encf.
  Hypothesis Hmf : macf_ok macf.
  Hypothesis Hne : forall i, (i < length cs)%nat -> nth i cs [] <> [].
  Hypothesis Hsl : forall n, (sl n <= n + 16)%nat.

  Lemma api_enc_logs mm c clen m ad npub k K Nn A T :
    locs okb mm -> enc_valid cf cs mm c clen m ad npub k K Nn A T ->
    N.of_nat (length A) < lim -> N.of_nat (length T) < lim ->
    prek k -> prek npub -> prea ad (length A) -> prea m (length T) -> prea c (length T) -> room mm ad (sl (length A)) ->
    logs (ApiCode.crypto_aead_encrypt enc mac cf c clen m (N.of_nat (length T)) ad (N.of_nat (length A)) npub k) mm 0%Z
         (putp (putp mm clen (word_le 8 (N.of_nat (length T) + 16))) c (encf K Nn T ++ macf K Nn A (encf K Nn T)))
         ((if (length T =? 0)%nat then [] else el K Nn (length T)) ++ ml K Nn A (encf K Nn T)).
  Proof.
    intros Hok V G1 G2 P1 P2 P3 P4 P5 Rad.
    destruct V as [Vc [[Bk Hk] Lk] [[Bn Hn] Ln] [[Ba Ha] La] [[Bt Ht] Lt] [Rc Pc] [Rl [Pl Al]]
      (D1 & D2 & D3 & D4 & D5) (D6 & D7 & D8) Hf].
    unfold ApiCode.crypto_aead_encrypt, RefIsap.ISAP_TAG_SZ.
    rewrite u64_small by lia.
    set (m1 := putp mm clen (word_le 8 (N.of_nat (length T) + 16))).
    assert (Hl8 : room mm clen (length (word_le 8 (N.of_nat (length T) + 16)))) by now rewrite word_le_length.
    eapply logs_step; [apply runs_store_ull; auto|apply silent_store_ull|]. fold m1.
    assert (F1 : forall q bs, has mm q bs -> disj clen 8 q (length bs) -> has m1 q bs).
    { intros q bs H1 H2. apply has_putp_disj; rewrite ?word_le_length; auto. }
    assert (R1 : forall q n, room mm q n -> room m1 q n) by (intros; now apply room_putp).
    assert (C1 : consts_ok cs m1) by now apply consts_putp.
    assert (O1 : locs okb m1) by now apply locs_putp.
    set (ct := encf K Nn T).
    assert (Lct : length ct = length T) by now apply Hef.
    assert (Bct : bytes ct) by now apply Hef.
    assert (P6 : prea c (length ct)) by now rewrite Lct.
    assert (Rc1 : room m1 c (length ct)).
    { apply R1. intros i Hi. apply Rc. lia. }
    eapply (logs_bind _ _ _ tt (putp m1 c ct)); [|cbv beta|reflexivity].
    { apply logs_if. destruct (N.ltb_spec 0 (N.of_nat (length T))) as [E|E].
      - replace (length T =? 0)%nat with false by lia. apply Henc; auto.
        + split; auto. apply F1; auto. now rewrite Lk.
        + split; auto. apply F1; auto. now rewrite Ln.
        + split; auto.
        + lia.
        + now rewrite Lct in Rc1.
        + eapply disj_sub; [exact D6|lia|lia].
        + eapply disj_sub; [exact D7|lia|lia].
      - replace (length T =? 0)%nat with true by lia. destruct ct; [rewrite putp_nil; apply logs_ret|]. cbn [length] in Lct. lia. }
    set (m2 := putp m1 c ct).
    assert (F2 : forall q bs, has m1 q bs -> disj c (length T + 16) q (length bs) -> has m2 q bs).
    { intros q bs H1 H2. apply has_putp_disj; auto. apply (disj_sub _ _ _ _ _ _ H2); lia. }
    assert (Ds : forall q n, disj c (length T + 16) q n -> disj (padd c (N.of_nat (length ct))) 16 q n).
    { intros q n H i j Hi Hj. rewrite padd_padd. replace (N.of_nat (length ct) + N.of_nat i) with (N.of_nat (length ct + i)) by lia.
      apply H; lia. }
    eapply logs_last; [|eapply runs_eq; [apply runs_ret|reflexivity|]|apply silent_ret].
    - rewrite <- Lct. apply Hmac with (K := K) (Nn := Nn); auto.
      + now apply consts_putp.
      + now apply locs_putp.
      + split; auto. apply F2; [apply F1; auto|]; now rewrite Lk.
      + split; auto. apply F2; [apply F1; auto|]; now rewrite Ln.
      + split; auto.
      + split; auto. now apply has_putp_same.
      + now rewrite Lct.
      + apply room_putp; auto. rewrite Lct. apply (room_sub m1 c (length T + 16)); [now apply R1|lia].
      + intros i j Hi Hj E. rewrite padd_padd in E. unfold padd in E. injection E. lia.
      + apply room_putp; auto.
      + apply room_putp; auto. apply R1. intros i Hi. apply Rc. specialize (Hsl (length ct)). lia.
    - fold ct. unfold m2. rewrite putp_app_bytes; auto.
      destruct (Hmf K Nn A ct) as [_ Lm]; auto.
      rewrite app_length, Lm, Lct. now apply R1.
  Qed.

  Lemma api_dec_logs mm m mlen c ad npub k K Nn A Y :
    locs okb mm -> dec_valid cf cs mm m mlen c ad npub k K Nn A Y ->
    N.of_nat (length A) < lim -> N.of_nat (length Y) - 16 < lim ->
    prek k -> prek npub -> prea ad (length A) -> prea m (length Y - 16) -> prea c (length Y - 16) -> room mm ad (sl (length A)) ->
    let m1 := putp mm mlen (word_le 8 (N.of_nat (length Y) - 16)) in
    let C := firstn (length Y - 16) Y in
    let good := list_eq_dec N.eq_dec (skipn (length Y - 16) Y) (macf K Nn A C) in
    logs (ApiCode.crypto_aead_decrypt enc mac cf m mlen c (N.of_nat (length Y)) ad (N.of_nat (length A)) npub k) mm
         (if good then 0%Z else (-1)%Z) (if good then putp m1 m (encf K Nn C) else m1)
         (ml K Nn A C ++ if good then (if (length Y - 16 =? 0)%nat then [] else el K Nn (length Y - 16)) else []).
  Proof.
    intros Hok V G1 G2 P1 P2 P3 P4 P5 Rad. cbv zeta.
    destruct V as [Vc [[Bk Hk] Lk] [[Bn Hn] Ln] [[Ba Ha] La] [[By Hy] [Ly Gy]] [Rm Pm] [Rl [Pl Al]]
      (D1 & D2 & D3 & D4 & D5) (D6 & D7 & D8) Hf].
    unfold ApiCode.crypto_aead_decrypt, RefIsap.ISAP_TAG_SZ.
    rewrite sub64_small by lia.
    set (n := (length Y - 16)%nat) in *. replace (N.of_nat (length Y) - 16) with (N.of_nat n) in * by lia.
    set (m1 := putp mm mlen (word_le 8 (N.of_nat n))).
    assert (Hl8 : room mm mlen (length (word_le 8 (N.of_nat n)))) by now rewrite word_le_length.
    eapply logs_step; [apply runs_store_ull; auto|apply silent_store_ull|]. fold m1.
    assert (F1 : forall q bs, has mm q bs -> disj mlen 8 q (length bs) -> has m1 q bs).
    { intros q bs H1 H2. apply has_putp_disj; rewrite ?word_le_length; auto. }
    assert (R1 : forall q j, room mm q j -> room m1 q j) by (intros; now apply room_putp).
    assert (C1 : consts_ok cs m1) by now apply consts_putp.
    assert (O1 : locs okb m1) by now apply locs_putp.
    assert (Hml : has m1 mlen (word_le 8 (N.of_nat n))) by now apply has_putp_same.
    set (C := firstn n Y). set (tg := skipn n Y).
    assert (LC : length C = n) by (unfold C; rewrite firstn_length; lia).
    assert (Ltg : length tg = 16%nat) by (unfold tg; rewrite skipn_length; lia).
    assert (BC : bytes C) by now apply bytes_firstn.
    assert (P6 : prea c (length C)) by now rewrite LC.
    assert (P7 : prea m (length C)) by now rewrite LC.
    assert (HY1 : has m1 c Y) by now apply F1.
    assert (HC1 : has m1 c C) by now apply has_firstn.
    assert (Htg1 : has m1 (padd c (N.of_nat n)) tg) by now apply has_skipn.
    assert (Hk1 : has m1 k K) by (apply F1; auto; now rewrite Lk).
    assert (Hn1 : has m1 npub Nn) by (apply F1; auto; now rewrite Ln).
    assert (Ha1 : has m1 ad A) by (apply F1; auto).
    set (T := macf K Nn A C).
    destruct (Hmf K Nn A C) as [BT LT]; auto. fold T in BT, LT.
    set (fin := if list_eq_dec N.eq_dec tg T then putp m1 m (encf K Nn C) else m1).
    apply (logs_with_block _ _ _ _ _ (map Some T)).
    set (m2 := m1 ++ [map Some T]).
    assert (F2 : forall q bs, has m1 q bs -> has m2 q bs) by (intros; now apply has_app).
    assert (C2 : consts_ok cs m2) by (apply consts_app; auto).
    assert (Hlen1 : (length cs <= length m1)%nat).
    { apply Nat.le_trans with (pb mlen); auto. unfold m1. rewrite putp_length. apply Nat.lt_le_incl, (room_pb mm mlen 8); auto. lia. }
    eapply logs_step; [apply (runs_load_ull cf mlen (N.of_nat n)); auto; [now apply has_app|lia]|apply silent_load_ull|].
    eapply (logs_bind _ _ _ tt m2); [|cbv beta|reflexivity].
    { rewrite <- LC. eapply logs_eq; [apply Hmac with (K := K) (Nn := Nn) (A := A) (C := C)| | |reflexivity]; auto.
      - apply consts_app; auto.
      - apply (locs_app cs okb sl); auto.
      - split; auto. now apply has_app.
      - split; auto. now apply has_app.
      - split; auto. now apply has_app.
      - split; auto. now apply has_app.
      - now rewrite LC.
      - apply room_of_le. cbn [pb po]. rewrite blk_mid, uninit_length. lia.
      - apply disj_blocks. cbn [pb]. apply Nat.neq_sym, Nat.lt_neq, (has_pb m1 k K); auto. destruct K; discriminate.
      - apply disj_blocks. cbn [pb]. apply Nat.neq_sym, Nat.lt_neq, (has_pb m1 npub Nn); auto. destruct Nn; discriminate.
      - destruct A as [|a0 A']; [intros i j Hi Hj; cbn [length] in Hj; lia|].
        apply disj_blocks. cbn [pb]. apply Nat.neq_sym, Nat.lt_neq, (has_pb m1 ad (a0 :: A')); auto. discriminate.
      - destruct C as [|c0 C'] eqn:EC; [intros i j Hi Hj; cbn [length] in Hj; lia|]. rewrite <- EC in *.
        apply disj_blocks. cbn [pb]. apply Nat.neq_sym, Nat.lt_neq, (has_pb m1 c C); auto. rewrite EC. discriminate.
      - apply room_app. now apply R1.
      - apply room_app. apply R1. intros i Hi. apply (room_has _ _ _ Hy). specialize (Hsl (length C)). lia.
      - fold T. unfold putp, put. cbn [pb po]. rewrite blk_mid, upd_mid. change (N.to_nat 0) with 0%nat.
        unfold m2. do 2 f_equal. apply splice_all. now rewrite map_length, uninit_length, LT. }
    assert (HT2 : has m2 (P (length m1) 0) T) by (apply has_blk0, blk_mid).
    apply (logs_step _ _ _ (eqs 16 T tg) m2).
    { apply (runs_for (fun j => eqs j T tg) (fun _ => m2)); auto.
      change (N.to_nat 16) with 16%nat. intros j Hj.
      eapply runs_bind; [apply runs_load, HT2; lia|].
      eapply runs_bind; [apply (runs_load_ull cf mlen (N.of_nat n)); auto; lia|].
      eapply runs_bind.
      - rewrite u64_small by lia. rewrite <- padd_padd. apply runs_load, (F2 _ _ Htg1). lia.
      - cbn [eqs]. apply runs_ret. }
    { apply silent_for. intros i a. apply silent_bind; [apply silent_load|]. intros. apply silent_bind; [apply silent_load_ull|]. intros.
      apply silent_bind; [apply silent_load|]. intros. apply silent_ret. }
    apply logs_if. unfold fin.
    assert (Heq : eqs 16 T tg = 16 <-> T = tg) by (apply (eqs_eq T tg 16); auto).
    destruct (list_eq_dec N.eq_dec tg T) as [E|E].
    - replace (eqs 16 T tg =? 16) with true by (symmetry; apply N.eqb_eq, Heq; auto).
      eapply logs_step; [apply (runs_load_ull cf mlen (N.of_nat n)); auto; lia|apply silent_load_ull|].
      pose proof (proj2 (Hef K Nn C Lk Ln Bk Bn BC)) as Le.
      eapply logs_last; [|eapply runs_eq; [apply runs_ret|reflexivity|reflexivity]|apply silent_ret].
      apply logs_if. destruct (N.ltb_spec 0 (N.of_nat n)) as [En|En].
      + replace (n =? 0)%nat with false by lia.
        eapply logs_step; [apply (runs_load_ull cf mlen (N.of_nat n)); auto; lia|apply silent_load_ull|].
        rewrite <- LC.
        eapply logs_eq; [apply Henc with (K := K) (Nn := Nn) (T := C)| | |reflexivity]; auto.
        * apply (locs_app cs okb sl); auto.
        * split; auto.
        * split; auto.
        * split; auto.
        * now rewrite LC.
        * lia.
        * rewrite LC. apply room_app. now apply R1.
        * now rewrite LC.
        * now rewrite LC.
        * now rewrite LC.
        * unfold m2. apply putp_app. rewrite Le, LC. now apply R1.
      + replace (n =? 0)%nat with true by lia. unfold m2.
        destruct (encf K Nn C); [rewrite putp_nil; apply logs_ret|]. cbn [length] in Le. lia.
    - replace (eqs 16 T tg =? 16) with false.
      + apply logs_ret.
      + symmetry. apply N.eqb_neq. intros H. apply Heq in H. auto.
  Qed.

End ApiLog.
