(* crypto_aead.c computes ISAP whenever the functions isap_enc and isap_mac that it calls do. Proofs only, apart from the
   statement of what those functions must do. *)
From Verif Require Import Base Prog SpecPerm Words Mem Vocab MemProof RefLib Sponge RefProof RefAead SpecFacts.
From Verif Require Spec RefIsap ApiCode.
From Verif Require Import Api.
Import Spec(inst, i_sz, i_rate, i_sH, i_sB, i_sE, i_sK, i_perm).
Open Scope N_scope.
Open Scope cm_scope.

Section ApiFun.
  Variables (cf : cfg) (cs : list (list N)).
  Variable prek : ptr -> Prop.       (* condition on the pointers to key and nonce *)
  Variable prea : ptr -> nat -> Prop. (* condition on a pointer to that many bytes of text or associated data *)
  Variable okb : nat -> Prop.        (* condition on blocks for local arrays *)
  Variable lim : N.                  (* bound on the lengths of text and associated data *)
  Variable sl : nat -> nat.          (* sl n bytes must exist where n bytes are to be authenticated *)
  Variable enc : forall (k npub m : ptr) (mlen : N) (c : ptr), M unit.
  Variable mac : forall (k npub ad : ptr) (adlen : N) (c : ptr) (clen : N) (tag : ptr), M unit.
  (* what isap_enc and isap_mac compute *)
  Variable encf : list N -> list N -> list N -> list N.
  Variable macf : list N -> list N -> list N -> list N -> list N.
  Definition encf_ok : Prop := forall K Nn T, length K = 16%nat -> length Nn = 16%nat -> bytes K -> bytes Nn -> bytes T ->
    bytes (encf K Nn T) /\ length (encf K Nn T) = length T.
  Definition macf_ok : Prop := forall K Nn A C, length K = 16%nat -> length Nn = 16%nat -> bytes K -> bytes Nn -> bytes A -> bytes C ->
    bytes (macf K Nn A C) /\ length (macf K Nn A C) = 16%nat.

  Definition enc_spec_e : Prop := forall mm k npub m c K Nn T,
    consts_ok cs mm -> locs okb mm ->
    bytes_at mm k K -> length K = 16%nat -> bytes_at mm npub Nn -> length Nn = 16%nat -> bytes_at mm m T ->
    N.of_nat (length T) < lim -> (0 < length T)%nat ->
    room mm c (length T) -> (length cs <= pb c)%nat ->
    disj c (length T) k 16 -> disj c (length T) npub 16 -> fwd_ok c m (length T) ->
    prek k -> prek npub -> prea m (length T) -> prea c (length T) ->
    runs (enc k npub m (N.of_nat (length T)) c) mm tt (putp mm c (encf K Nn T)).
  (* The tag goes right behind the ciphertext or into a local array. *)
  Definition mac_spec_f : Prop := forall mm k npub ad c tag K Nn A C,
    consts_ok cs mm -> locs okb mm ->
    bytes_at mm k K -> length K = 16%nat -> bytes_at mm npub Nn -> length Nn = 16%nat -> bytes_at mm ad A ->
    bytes_at mm c C -> N.of_nat (length A) < lim -> N.of_nat (length C) < lim ->
    room mm tag 16 -> (length cs <= pb tag)%nat ->
    disj tag 16 k 16 -> disj tag 16 npub 16 -> disj tag 16 ad (length A) -> disj tag 16 c (length C) ->
    prek k -> prek npub -> prea ad (length A) -> prea c (length C) -> room mm ad (sl (length A)) -> room mm c (sl (length C)) ->
    runs (mac k npub ad (N.of_nat (length A)) c (N.of_nat (length C)) tag) mm tt
         (putp mm tag (macf K Nn A C)).

  Hypothesis Henc : enc_spec_e.
  Hypothesis Hmac : mac_spec_f.
  Hypothesis Hef : encf_ok.
  Hypothesis Hmf : macf_ok.
  Hypothesis Hne : forall i, (i < length cs)%nat -> nth i cs [] <> [].
  Hypothesis Hsl : forall n, (sl n <= n + 16)%nat.

  Lemma locs_putp (m : mem) p bs : locs okb m -> locs okb (putp m p bs).
  Proof. intros H b Hb. apply H. now rewrite putp_length in Hb. Qed.
  Lemma locs_app (m : mem) l : locs okb m -> locs okb (m ++ l).
  Proof. intros H b Hb. apply H. rewrite app_length in Hb. lia. Qed.

  Lemma api_enc_ok_e mm c clen m ad npub k K Nn A T :
    locs okb mm -> enc_valid cf cs mm c clen m ad npub k K Nn A T ->
    N.of_nat (length A) < lim -> N.of_nat (length T) < lim ->
    prek k -> prek npub -> prea ad (length A) -> prea m (length T) -> prea c (length T) -> room mm ad (sl (length A)) ->
    runs (ApiCode.crypto_aead_encrypt enc mac cf c clen m (N.of_nat (length T)) ad (N.of_nat (length A)) npub k) mm 0%Z
         (putp (putp mm clen (word_le 8 (N.of_nat (length T) + 16))) c (encf K Nn T ++ macf K Nn A (encf K Nn T))).
  Proof.
    intros Hok V G1 G2 P1 P2 P3 P4 P5 Rad.
    destruct V as [Vc [[Bk Hk] Lk] [[Bn Hn] Ln] [[Ba Ha] La] [[Bt Ht] Lt] [Rc Pc] [Rl [Pl Al]]
      (D1 & D2 & D3 & D4 & D5) (D6 & D7 & D8) Hf].
    unfold ApiCode.crypto_aead_encrypt, RefIsap.ISAP_TAG_SZ.
    rewrite u64_small by lia.
    set (m1 := putp mm clen (word_le 8 (N.of_nat (length T) + 16))).
    assert (Hl8 : room mm clen (length (word_le 8 (N.of_nat (length T) + 16)))) by now rewrite word_le_length.
    eapply runs_bind; [apply runs_store_ull; auto|]. fold m1.
    assert (F1 : forall q bs, has mm q bs -> disj clen 8 q (length bs) -> has m1 q bs).
    { intros q bs H1 H2. apply has_putp_disj; rewrite ?word_le_length; auto. }
    assert (R1 : forall q n, room mm q n -> room m1 q n) by (intros; now apply room_putp).
    assert (C1 : consts_ok cs m1) by now apply consts_putp.
    assert (O1 : locs okb m1) by now apply locs_putp.
    set (ct := encf K Nn T).
    assert (Lct : length ct = length T) by now apply Hef.
    assert (Bct : bytes ct) by now apply Hef.
    assert (P6 : prea c (length ct)) by now rewrite Lct.
    assert (Rc1 : room m1 c (length ct)).
    { apply R1. intros i Hi. apply Rc. lia. }
    apply (runs_bind _ _ _ tt (putp m1 c ct)).
    { apply runs_if_skip.
      - intros E. apply Henc; auto.
        + split; auto. apply F1; auto. now rewrite Lk.
        + split; auto. apply F1; auto. now rewrite Ln.
        + split; auto.
        + lia.
        + now rewrite Lct in Rc1.
        + eapply disj_sub; [exact D6|lia|lia].
        + eapply disj_sub; [exact D7|lia|lia].
      - intros E. assert (length T = 0)%nat by lia. destruct ct; [now rewrite putp_nil|]. cbn [length] in Lct. lia. }
    set (m2 := putp m1 c ct).
    assert (F2 : forall q bs, has m1 q bs -> disj c (length T + 16) q (length bs) -> has m2 q bs).
    { intros q bs H1 H2. apply has_putp_disj; auto. apply (disj_sub _ _ _ _ _ _ H2); lia. }
    assert (Ds : forall q n, disj c (length T + 16) q n -> disj (padd c (N.of_nat (length ct))) 16 q n).
    { intros q n H i j Hi Hj. rewrite padd_padd. replace (N.of_nat (length ct) + N.of_nat i) with (N.of_nat (length ct + i)) by lia.
      apply H; lia. }
    eapply runs_bind; [|eapply runs_eq; [apply runs_ret|reflexivity|]].
    - rewrite <- Lct. apply Hmac with (K := K) (Nn := Nn); auto.
      + now apply consts_putp.
      + now apply locs_putp.
      + split; auto. apply F2; [apply F1; auto|]; now rewrite Lk.
      + split; auto. apply F2; [apply F1; auto|]; now rewrite Ln.
      + split; auto.
      + split; auto. now apply has_putp_same.
      + now rewrite Lct.
      + apply room_putp; auto. rewrite Lct. apply (room_sub m1 c (length T + 16)); [now apply R1|lia].
      + intros i j Hi Hj E. rewrite padd_padd in E. unfold padd in E. injection E. lia.
      + apply room_putp; auto.
      + apply room_putp; auto. apply R1. intros i Hi. apply Rc. specialize (Hsl (length ct)). lia.
    - fold ct. unfold m2. rewrite putp_app_bytes; auto.
      destruct (Hmf K Nn A ct) as [_ Lm]; auto.
      rewrite app_length, Lm, Lct. now apply R1.
  Qed.

  Lemma api_dec_ok_e mm m mlen c ad npub k K Nn A Y :
    locs okb mm -> dec_valid cf cs mm m mlen c ad npub k K Nn A Y ->
    N.of_nat (length A) < lim -> N.of_nat (length Y) - 16 < lim ->
    prek k -> prek npub -> prea ad (length A) -> prea m (length Y - 16) -> prea c (length Y - 16) -> room mm ad (sl (length A)) ->
    let m1 := putp mm mlen (word_le 8 (N.of_nat (length Y) - 16)) in
    let C := firstn (length Y - 16) Y in
    let good := list_eq_dec N.eq_dec (skipn (length Y - 16) Y) (macf K Nn A C) in
    runs (ApiCode.crypto_aead_decrypt enc mac cf m mlen c (N.of_nat (length Y)) ad (N.of_nat (length A)) npub k) mm
         (if good then 0%Z else (-1)%Z) (if good then putp m1 m (encf K Nn C) else m1).
  Proof.
    intros Hok V G1 G2 P1 P2 P3 P4 P5 Rad. cbv zeta.
    destruct V as [Vc [[Bk Hk] Lk] [[Bn Hn] Ln] [[Ba Ha] La] [[By Hy] [Ly Gy]] [Rm Pm] [Rl [Pl Al]]
      (D1 & D2 & D3 & D4 & D5) (D6 & D7 & D8) Hf].
    unfold ApiCode.crypto_aead_decrypt, RefIsap.ISAP_TAG_SZ.
    rewrite sub64_small by lia.
    set (n := (length Y - 16)%nat) in *. replace (N.of_nat (length Y) - 16) with (N.of_nat n) in * by lia.
    set (m1 := putp mm mlen (word_le 8 (N.of_nat n))).
    assert (Hl8 : room mm mlen (length (word_le 8 (N.of_nat n)))) by now rewrite word_le_length.
    eapply runs_bind; [apply runs_store_ull; auto|]. fold m1.
    assert (F1 : forall q bs, has mm q bs -> disj mlen 8 q (length bs) -> has m1 q bs).
    { intros q bs H1 H2. apply has_putp_disj; rewrite ?word_le_length; auto. }
    assert (R1 : forall q j, room mm q j -> room m1 q j) by (intros; now apply room_putp).
    assert (C1 : consts_ok cs m1) by now apply consts_putp.
    assert (O1 : locs okb m1) by now apply locs_putp.
    assert (Hml : has m1 mlen (word_le 8 (N.of_nat n))) by now apply has_putp_same.
    set (C := firstn n Y). set (tg := skipn n Y).
    assert (LC : length C = n) by (unfold C; rewrite firstn_length; lia).
    assert (Ltg : length tg = 16%nat) by (unfold tg; rewrite skipn_length; lia).
    assert (BC : bytes C) by now apply bytes_firstn.
    assert (P6 : prea c (length C)) by now rewrite LC.
    assert (P7 : prea m (length C)) by now rewrite LC.
    assert (HY1 : has m1 c Y) by now apply F1.
    assert (HC1 : has m1 c C) by now apply has_firstn.
    assert (Htg1 : has m1 (padd c (N.of_nat n)) tg) by now apply has_skipn.
    assert (Hk1 : has m1 k K) by (apply F1; auto; now rewrite Lk).
    assert (Hn1 : has m1 npub Nn) by (apply F1; auto; now rewrite Ln).
    assert (Ha1 : has m1 ad A) by (apply F1; auto).
    set (T := macf K Nn A C).
    destruct (Hmf K Nn A C) as [BT LT]; auto. fold T in BT, LT.
    set (fin := if list_eq_dec N.eq_dec tg T then putp m1 m (encf K Nn C) else m1).
    apply (runs_with_block _ _ _ _ _ (map Some T)).
    set (m2 := m1 ++ [map Some T]).
    assert (F2 : forall q bs, has m1 q bs -> has m2 q bs) by (intros; now apply has_app).
    assert (C2 : consts_ok cs m2) by (apply consts_app; auto).
    assert (Hlen1 : (length cs <= length m1)%nat).
    { apply Nat.le_trans with (pb mlen); auto. unfold m1. rewrite putp_length. apply Nat.lt_le_incl, (room_pb mm mlen 8); auto. lia. }
    eapply runs_bind; [apply (runs_load_ull cf mlen (N.of_nat n)); auto; [now apply has_app|lia]|].
    apply (runs_bind _ _ _ tt m2).
    { rewrite <- LC. eapply runs_eq; [apply Hmac with (K := K) (Nn := Nn) (A := A) (C := C)| |]; auto.
      - apply consts_app; auto.
      - now apply locs_app.
      - split; auto. now apply has_app.
      - split; auto. now apply has_app.
      - split; auto. now apply has_app.
      - split; auto. now apply has_app.
      - now rewrite LC.
      - apply room_of_le. cbn [pb po]. rewrite blk_mid, uninit_length. lia.
      - apply disj_blocks. cbn [pb]. apply Nat.neq_sym, Nat.lt_neq, (has_pb m1 k K); auto. destruct K; discriminate.
      - apply disj_blocks. cbn [pb]. apply Nat.neq_sym, Nat.lt_neq, (has_pb m1 npub Nn); auto. destruct Nn; discriminate.
      - destruct A as [|a0 A']; [intros i j Hi Hj; cbn [length] in Hj; lia|].
        apply disj_blocks. cbn [pb]. apply Nat.neq_sym, Nat.lt_neq, (has_pb m1 ad (a0 :: A')); auto. discriminate.
      - destruct C as [|c0 C'] eqn:EC; [intros i j Hi Hj; cbn [length] in Hj; lia|]. rewrite <- EC in *.
        apply disj_blocks. cbn [pb]. apply Nat.neq_sym, Nat.lt_neq, (has_pb m1 c C); auto. rewrite EC. discriminate.
      - apply room_app. now apply R1.
      - apply room_app. apply R1. intros i Hi. apply (room_has _ _ _ Hy). specialize (Hsl (length C)). lia.
      - fold T. unfold putp, put. cbn [pb po]. rewrite blk_mid, upd_mid. change (N.to_nat 0) with 0%nat.
        unfold m2. do 2 f_equal. apply splice_all. now rewrite map_length, uninit_length, LT. }
    assert (HT2 : has m2 (P (length m1) 0) T) by (apply has_blk0, blk_mid).
    apply (runs_bind _ _ _ (eqs 16 T tg) m2).
    { apply (runs_for (fun j => eqs j T tg) (fun _ => m2)); auto.
      change (N.to_nat 16) with 16%nat. intros j Hj.
      eapply runs_bind; [apply runs_load, HT2; lia|].
      eapply runs_bind; [apply (runs_load_ull cf mlen (N.of_nat n)); auto; lia|].
      eapply runs_bind.
      - rewrite u64_small by lia. rewrite <- padd_padd. apply runs_load, (F2 _ _ Htg1). lia.
      - cbn [eqs]. apply runs_ret. }
    apply runs_if. unfold fin.
    assert (Heq : eqs 16 T tg = 16 <-> T = tg) by (apply (eqs_eq T tg 16); auto).
    destruct (list_eq_dec N.eq_dec tg T) as [E|E].
    - replace (eqs 16 T tg =? 16) with true by (symmetry; apply N.eqb_eq, Heq; auto).
      eapply runs_bind; [apply (runs_load_ull cf mlen (N.of_nat n)); auto; lia|].
      pose proof (proj2 (Hef K Nn C Lk Ln Bk Bn BC)) as Le.
      eapply runs_bind; [|eapply runs_eq; [apply runs_ret|reflexivity|reflexivity]].
      apply runs_if_skip.
      + intros En. eapply runs_bind; [apply (runs_load_ull cf mlen (N.of_nat n)); auto; lia|].
        rewrite <- LC.
        eapply runs_eq; [apply Henc with (K := K) (Nn := Nn) (T := C)| |]; auto.
        * now apply locs_app.
        * split; auto.
        * split; auto.
        * split; auto.
        * now rewrite LC.
        * lia.
        * rewrite LC. apply room_app. now apply R1.
        * now rewrite LC.
        * now rewrite LC.
        * now rewrite LC.
        * unfold m2. apply putp_app. rewrite Le, LC. now apply R1.
      + intros Ez. assert (n = 0)%nat by lia. unfold m2.
        destruct (encf K Nn C); [now rewrite putp_nil|]. cbn [length] in Le. lia.
    - replace (eqs 16 T tg =? 16) with false.
      + apply runs_ret.
      + symmetry. apply N.eqb_neq. intros H. apply Heq in H. auto.
  Qed.

End ApiFun.

Section ApiGen.
  Variables (v : variant) (cf : cfg) (cs : list (list N)).
  Variable prek : ptr -> Prop.       (* condition on the pointers to key and nonce *)
  Variable prea : ptr -> nat -> Prop. (* condition on a pointer to that many bytes of text or associated data *)
  Variable okb : nat -> Prop.        (* condition on blocks for local arrays *)
  Variable lim : N.                  (* bound on the lengths of text and associated data *)
  Variable sl : nat -> nat.          (* sl n bytes must exist where n bytes are to be authenticated *)
  Variable enc : forall (k npub m : ptr) (mlen : N) (c : ptr), M unit.
  Variable mac : forall (k npub ad : ptr) (adlen : N) (c : ptr) (clen : N) (tag : ptr), M unit.
  (* the tag that isap_mac computes *)
  Variable macf : list N -> list N -> list N -> list N -> list N.
  Notation I := (v_inst v).
  Definition enc_spec_g : Prop := forall mm k npub m c K Nn T,
    consts_ok cs mm -> locs okb mm ->
    bytes_at mm k K -> length K = 16%nat -> bytes_at mm npub Nn -> length Nn = 16%nat -> bytes_at mm m T ->
    N.of_nat (length T) < lim -> (0 < length T)%nat ->
    room mm c (length T) -> (length cs <= pb c)%nat ->
    disj c (length T) k 16 -> disj c (length T) npub 16 -> fwd_ok c m (length T) ->
    prek k -> prek npub -> prea m (length T) -> prea c (length T) ->
    runs (enc k npub m (N.of_nat (length T)) c) mm tt (putp mm c (Spec.isap_enc I K Nn T)).
  Hypothesis Henc : enc_spec_g.
  Hypothesis Hmac : mac_spec_f cs prek prea okb lim sl mac macf.
  Hypothesis Hmf : macf_ok macf.
  Hypothesis Hne : forall i, (i < length cs)%nat -> nth i cs [] <> [].
  Hypothesis Hsl : forall n, (sl n <= n + 16)%nat.
  Lemma v_encf : encf_ok (Spec.isap_enc I).
  Proof. intros K Nn T. intros. split; [now apply v_enc_bytes|now apply v_enc_length]. Qed.

  Lemma api_enc_ok_f mm c clen m ad npub k K Nn A T :
    locs okb mm -> enc_valid cf cs mm c clen m ad npub k K Nn A T ->
    N.of_nat (length A) < lim -> N.of_nat (length T) < lim ->
    prek k -> prek npub -> prea ad (length A) -> prea m (length T) -> prea c (length T) -> room mm ad (sl (length A)) ->
    runs (ApiCode.crypto_aead_encrypt enc mac cf c clen m (N.of_nat (length T)) ad (N.of_nat (length A)) npub k) mm 0%Z
         (putp (putp mm clen (word_le 8 (N.of_nat (length T) + 16))) c (Spec.isap_enc I K Nn T ++ macf K Nn A (Spec.isap_enc I K Nn T))).
  Proof. exact (api_enc_ok_e cf cs prek prea okb lim sl enc mac (Spec.isap_enc I) macf Henc Hmac v_encf Hmf Hne Hsl mm c clen m ad npub k K Nn A T). Qed.

  Lemma api_dec_ok_f mm m mlen c ad npub k K Nn A Y :
    locs okb mm -> dec_valid cf cs mm m mlen c ad npub k K Nn A Y ->
    N.of_nat (length A) < lim -> N.of_nat (length Y) - 16 < lim ->
    prek k -> prek npub -> prea ad (length A) -> prea m (length Y - 16) -> prea c (length Y - 16) -> room mm ad (sl (length A)) ->
    let m1 := putp mm mlen (word_le 8 (N.of_nat (length Y) - 16)) in
    let C := firstn (length Y - 16) Y in
    let good := list_eq_dec N.eq_dec (skipn (length Y - 16) Y) (macf K Nn A C) in
    runs (ApiCode.crypto_aead_decrypt enc mac cf m mlen c (N.of_nat (length Y)) ad (N.of_nat (length A)) npub k) mm
         (if good then 0%Z else (-1)%Z) (if good then putp m1 m (Spec.isap_enc I K Nn C) else m1).
  Proof. exact (api_dec_ok_e cf cs prek prea okb lim sl enc mac (Spec.isap_enc I) macf Henc Hmac v_encf Hmf Hne Hsl mm m mlen c ad npub k K Nn A Y). Qed.
End ApiGen.

Section ApiProof.
  Variables (v : variant) (cf : cfg) (cs : list (list N)).
  Variable prek : ptr -> Prop.
  Variable prea : ptr -> nat -> Prop.
  Variable okb : nat -> Prop.
  Variable lim : N.
  Variable sl : nat -> nat.
  Variable enc : forall (k npub m : ptr) (mlen : N) (c : ptr), M unit.
  Variable mac : forall (k npub ad : ptr) (adlen : N) (c : ptr) (clen : N) (tag : ptr), M unit.
  Notation I := (v_inst v).

  Definition mac_spec_g : Prop := forall mm k npub ad c tag K Nn A C,
    consts_ok cs mm -> locs okb mm ->
    bytes_at mm k K -> length K = 16%nat -> bytes_at mm npub Nn -> length Nn = 16%nat -> bytes_at mm ad A ->
    bytes_at mm c C -> N.of_nat (length A) < lim -> N.of_nat (length C) < lim ->
    room mm tag 16 -> (length cs <= pb tag)%nat ->
    disj tag 16 k 16 -> disj tag 16 npub 16 -> disj tag 16 ad (length A) -> disj tag 16 c (length C) ->
    prek k -> prek npub -> prea ad (length A) -> prea c (length C) -> room mm ad (sl (length A)) -> room mm c (sl (length C)) ->
    runs (mac k npub ad (N.of_nat (length A)) c (N.of_nat (length C)) tag) mm tt
         (putp mm tag (Spec.isap_mac I K Nn A C)).

  Lemma v_mac_macf : macf_ok (Spec.isap_mac I).
  Proof. intros K Nn A C. intros. now apply v_mac. Qed.
  Hypothesis Henc : enc_spec_g v cs prek prea okb lim enc.
  Hypothesis Hmac : mac_spec_g.
  Hypothesis Hne : forall i, (i < length cs)%nat -> nth i cs [] <> [].
  Hypothesis Hsl : forall n, (sl n <= n + 16)%nat.

  Lemma api_enc_ok_g mm c clen m ad npub k K Nn A T :
    locs okb mm -> enc_valid cf cs mm c clen m ad npub k K Nn A T ->
    N.of_nat (length A) < lim -> N.of_nat (length T) < lim ->
    prek k -> prek npub -> prea ad (length A) -> prea m (length T) -> prea c (length T) -> room mm ad (sl (length A)) ->
    runs (ApiCode.crypto_aead_encrypt enc mac cf c clen m (N.of_nat (length T)) ad (N.of_nat (length A)) npub k) mm 0%Z
         (putp (putp mm clen (word_le 8 (N.of_nat (length T) + 16))) c (Spec.isap_encrypt I K Nn A T)).
  Proof.
    exact (api_enc_ok_f v cf cs prek prea okb lim sl enc mac (Spec.isap_mac I) Henc Hmac v_mac_macf Hne Hsl mm c clen m ad npub k K Nn A T).
  Qed.
  Lemma api_dec_ok_g mm m mlen c ad npub k K Nn A Y :
    locs okb mm -> dec_valid cf cs mm m mlen c ad npub k K Nn A Y ->
    N.of_nat (length A) < lim -> N.of_nat (length Y) - 16 < lim ->
    prek k -> prek npub -> prea ad (length A) -> prea m (length Y - 16) -> prea c (length Y - 16) -> room mm ad (sl (length A)) ->
    let m1 := putp mm mlen (word_le 8 (N.of_nat (length Y) - 16)) in
    runs (ApiCode.crypto_aead_decrypt enc mac cf m mlen c (N.of_nat (length Y)) ad (N.of_nat (length A)) npub k) mm
         (match Spec.isap_decrypt I K Nn A Y with Some _ => 0%Z | None => (-1)%Z end)
         (match Spec.isap_decrypt I K Nn A Y with Some T => putp m1 m T | None => m1 end).
  Proof.
    intros Hok V G1 G2 P1 P2 P3 P4 P5 Rad m1.
    pose proof (api_dec_ok_f v cf cs prek prea okb lim sl enc mac (Spec.isap_mac I) Henc Hmac v_mac_macf Hne Hsl mm m mlen c ad npub k K Nn A Y
      Hok V G1 G2 P1 P2 P3 P4 P5 Rad) as H. cbv zeta in H.
    destruct V as [_ _ _ _ [_ [_ Gy]] _ _ _ _ _].
    unfold Spec.isap_decrypt. replace (length Y <? 16)%nat with false by lia. cbv zeta.
    destruct (list_eq_dec _ _ _); exact H.
  Qed.

  Definition api_aead : aead := Aead (ApiCode.crypto_aead_encrypt enc mac cf) (ApiCode.crypto_aead_decrypt enc mac cf).
End ApiProof.

(* One condition for all pointers. *)
Section OnePre.
  Variables (v : variant) (cf : cfg) (cs : list (list N)).
  Variable pre : ptr -> Prop.        (* condition on the pointers handed in by the caller *)
  Variable okb : nat -> Prop.
  Variable lim : N.
  Variable sl : nat -> nat.
  Variable enc : forall (k npub m : ptr) (mlen : N) (c : ptr), M unit.
  Variable mac : forall (k npub ad : ptr) (adlen : N) (c : ptr) (clen : N) (tag : ptr), M unit.
  Notation I := (v_inst v).
  Definition enc_spec_l : Prop := forall mm k npub m c K Nn T,
    consts_ok cs mm -> locs okb mm ->
    bytes_at mm k K -> length K = 16%nat -> bytes_at mm npub Nn -> length Nn = 16%nat -> bytes_at mm m T ->
    N.of_nat (length T) < lim -> (0 < length T)%nat ->
    room mm c (length T) -> (length cs <= pb c)%nat ->
    disj c (length T) k 16 -> disj c (length T) npub 16 -> fwd_ok c m (length T) ->
    pre k -> pre npub -> pre m -> pre c ->
    runs (enc k npub m (N.of_nat (length T)) c) mm tt (putp mm c (Spec.isap_enc I K Nn T)).
  (* The tag goes right behind the ciphertext or into a local array. *)
  Definition mac_spec_s : Prop := forall mm k npub ad c tag K Nn A C,
    consts_ok cs mm -> locs okb mm ->
    bytes_at mm k K -> length K = 16%nat -> bytes_at mm npub Nn -> length Nn = 16%nat -> bytes_at mm ad A ->
    bytes_at mm c C -> N.of_nat (length A) < lim -> N.of_nat (length C) < lim ->
    room mm tag 16 -> (length cs <= pb tag)%nat ->
    disj tag 16 k 16 -> disj tag 16 npub 16 -> disj tag 16 ad (length A) -> disj tag 16 c (length C) ->
    pre k -> pre npub -> pre ad -> pre c -> room mm ad (sl (length A)) -> room mm c (sl (length C)) ->
    runs (mac k npub ad (N.of_nat (length A)) c (N.of_nat (length C)) tag) mm tt
         (putp mm tag (Spec.isap_mac I K Nn A C)).

  Hypothesis Henc : enc_spec_l.
  Hypothesis Hmac : mac_spec_s.
  Hypothesis Hne : forall i, (i < length cs)%nat -> nth i cs [] <> [].
  Hypothesis Hsl : forall n, (sl n <= n + 16)%nat.

  Lemma api_enc_ok_s mm c clen m ad npub k K Nn A T :
    locs okb mm -> enc_valid cf cs mm c clen m ad npub k K Nn A T ->
    N.of_nat (length A) < lim -> N.of_nat (length T) < lim ->
    pre k -> pre npub -> pre ad -> pre m -> pre c -> room mm ad (sl (length A)) ->
    runs (ApiCode.crypto_aead_encrypt enc mac cf c clen m (N.of_nat (length T)) ad (N.of_nat (length A)) npub k) mm 0%Z
         (putp (putp mm clen (word_le 8 (N.of_nat (length T) + 16))) c (Spec.isap_encrypt I K Nn A T)).
  Proof. intros. now apply (api_enc_ok_g v cf cs pre (fun p _ => pre p) okb lim sl enc mac Henc Hmac). Qed.
  Lemma api_dec_ok_s mm m mlen c ad npub k K Nn A Y :
    locs okb mm -> dec_valid cf cs mm m mlen c ad npub k K Nn A Y ->
    N.of_nat (length A) < lim -> N.of_nat (length Y) - 16 < lim ->
    pre k -> pre npub -> pre ad -> pre m -> pre c -> room mm ad (sl (length A)) ->
    let m1 := putp mm mlen (word_le 8 (N.of_nat (length Y) - 16)) in
    runs (ApiCode.crypto_aead_decrypt enc mac cf m mlen c (N.of_nat (length Y)) ad (N.of_nat (length A)) npub k) mm
         (match Spec.isap_decrypt I K Nn A Y with Some _ => 0%Z | None => (-1)%Z end)
         (match Spec.isap_decrypt I K Nn A Y with Some T => putp m1 m T | None => m1 end).
  Proof. intros. now apply (api_dec_ok_g v cf cs pre (fun p _ => pre p) okb lim sl enc mac Henc Hmac). Qed.
End OnePre.

(* Nothing is read beyond the buffers. *)
Section NoSlack.
  Variables (v : variant) (cf : cfg) (cs : list (list N)).
  Variable pre : ptr -> Prop.
  Variable okb : nat -> Prop.
  Variable lim : N.
  Variable enc : forall (k npub m : ptr) (mlen : N) (c : ptr), M unit.
  Variable mac : forall (k npub ad : ptr) (adlen : N) (c : ptr) (clen : N) (tag : ptr), M unit.
  Notation I := (v_inst v).
  Definition mac_spec_l : Prop := forall mm k npub ad c tag K Nn A C,
    consts_ok cs mm -> locs okb mm ->
    bytes_at mm k K -> length K = 16%nat -> bytes_at mm npub Nn -> length Nn = 16%nat -> bytes_at mm ad A ->
    bytes_at mm c C -> N.of_nat (length A) < lim -> N.of_nat (length C) < lim ->
    room mm tag 16 -> (length cs <= pb tag)%nat ->
    disj tag 16 k 16 -> disj tag 16 npub 16 -> disj tag 16 ad (length A) -> disj tag 16 c (length C) ->
    pre k -> pre npub -> pre ad -> pre c ->
    runs (mac k npub ad (N.of_nat (length A)) c (N.of_nat (length C)) tag) mm tt
         (putp mm tag (Spec.isap_mac I K Nn A C)).

  Hypothesis Henc : enc_spec_l v cs pre okb lim enc.
  Hypothesis Hmac : mac_spec_l.
  Hypothesis Hne : forall i, (i < length cs)%nat -> nth i cs [] <> [].

  Lemma mac_l_s : mac_spec_s v cs pre okb lim (fun n => n) mac.
  Proof. intros mm k npub ad c tag K Nn A C H1 H2 H3 H4 H5 H6 H7 H8 H9 Ha Hb Hc Hd He Hf Hg Hh Hi Hj Hk _ _. now apply Hmac. Qed.

  Lemma api_enc_ok_l mm c clen m ad npub k K Nn A T :
    locs okb mm -> enc_valid cf cs mm c clen m ad npub k K Nn A T ->
    N.of_nat (length A) < lim -> N.of_nat (length T) < lim ->
    pre k -> pre npub -> pre ad -> pre m -> pre c ->
    runs (ApiCode.crypto_aead_encrypt enc mac cf c clen m (N.of_nat (length T)) ad (N.of_nat (length A)) npub k) mm 0%Z
         (putp (putp mm clen (word_le 8 (N.of_nat (length T) + 16))) c (Spec.isap_encrypt I K Nn A T)).
  Proof.
    intros Hok V. intros. apply (api_enc_ok_s v cf cs pre okb lim (fun n => n)); auto using mac_l_s.
    - intros. lia.
    - apply room_has, (ev_ad _ _ _ _ _ _ _ _ _ _ _ _ _ V).
  Qed.
  Lemma api_dec_ok_l mm m mlen c ad npub k K Nn A Y :
    locs okb mm -> dec_valid cf cs mm m mlen c ad npub k K Nn A Y ->
    N.of_nat (length A) < lim -> N.of_nat (length Y) - 16 < lim ->
    pre k -> pre npub -> pre ad -> pre m -> pre c ->
    let m1 := putp mm mlen (word_le 8 (N.of_nat (length Y) - 16)) in
    runs (ApiCode.crypto_aead_decrypt enc mac cf m mlen c (N.of_nat (length Y)) ad (N.of_nat (length A)) npub k) mm
         (match Spec.isap_decrypt I K Nn A Y with Some _ => 0%Z | None => (-1)%Z end)
         (match Spec.isap_decrypt I K Nn A Y with Some T => putp m1 m T | None => m1 end).
  Proof.
    intros Hok V. intros. apply (api_dec_ok_s v cf cs pre okb lim (fun n => n)); auto using mac_l_s.
    - intros. lia.
    - apply room_has, (dv_ad _ _ _ _ _ _ _ _ _ _ _ _ _ V).
  Qed.
End NoSlack.

(* Without a bound other than that of the type. *)
Notation enc_spec v cs pre okb := (enc_spec_l v cs pre okb (2 ^ 64)).
Notation mac_spec v cs pre okb := (mac_spec_l v cs pre okb (2 ^ 64)).

Section Unbounded.
  Variables (v : variant) (cf : cfg) (cs : list (list N)).
  Variable pre : ptr -> Prop.
  Variable okb : nat -> Prop.
  Variable enc : forall (k npub m : ptr) (mlen : N) (c : ptr), M unit.
  Variable mac : forall (k npub ad : ptr) (adlen : N) (c : ptr) (clen : N) (tag : ptr), M unit.
  Notation I := (v_inst v).
  Hypothesis Henc : enc_spec v cs pre okb enc.
  Hypothesis Hmac : mac_spec v cs pre okb mac.
  Hypothesis Hne : forall i, (i < length cs)%nat -> nth i cs [] <> [].

  Lemma api_enc_ok mm c clen m ad npub k K Nn A T :
    locs okb mm -> enc_valid cf cs mm c clen m ad npub k K Nn A T ->
    pre k -> pre npub -> pre ad -> pre m -> pre c ->
    runs (ApiCode.crypto_aead_encrypt enc mac cf c clen m (N.of_nat (length T)) ad (N.of_nat (length A)) npub k) mm 0%Z
         (putp (putp mm clen (word_le 8 (N.of_nat (length T) + 16))) c (Spec.isap_encrypt I K Nn A T)).
  Proof.
    intros Hok V. apply (api_enc_ok_l v cf cs pre okb (2 ^ 64)); auto.
    - apply (ev_ad _ _ _ _ _ _ _ _ _ _ _ _ _ V).
    - pose proof (proj2 (ev_msg _ _ _ _ _ _ _ _ _ _ _ _ _ V)). lia.
  Qed.
  Lemma api_dec_ok mm m mlen c ad npub k K Nn A Y :
    locs okb mm -> dec_valid cf cs mm m mlen c ad npub k K Nn A Y ->
    pre k -> pre npub -> pre ad -> pre m -> pre c ->
    let m1 := putp mm mlen (word_le 8 (N.of_nat (length Y) - 16)) in
    runs (ApiCode.crypto_aead_decrypt enc mac cf m mlen c (N.of_nat (length Y)) ad (N.of_nat (length A)) npub k) mm
         (match Spec.isap_decrypt I K Nn A Y with Some _ => 0%Z | None => (-1)%Z end)
         (match Spec.isap_decrypt I K Nn A Y with Some T => putp m1 m T | None => m1 end).
  Proof.
    intros Hok V. apply (api_dec_ok_l v cf cs pre okb (2 ^ 64)); auto.
    - apply (dv_ad _ _ _ _ _ _ _ _ _ _ _ _ _ V).
    - pose proof (proj2 (dv_ct _ _ _ _ _ _ _ _ _ _ _ _ _ V)). lia.
  Qed.

  Lemma api_impl_ok : (forall p, pre p) -> impl_ok I cf cs okb (api_aead cf enc mac).
  Proof.
    intros Hp. constructor; intros.
    - apply api_enc_ok; auto.
    - apply api_dec_ok; auto.
  Qed.
End Unbounded.
