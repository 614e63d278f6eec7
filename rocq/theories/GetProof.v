(* getcycles.c: memory and counters. Proofs only. *)
From Coq Require Import Ascii String QArith Permutation.
From Verif Require Import Base SpecPerm Words Mem Vocab Vocab2 VocabK MemProof RefLib RefIsap RefProof RefAead SpecFacts Api ExLib OptPerm OptIsap OptProof OptImpl
  OptEx K64Impl KAvxImpl KArmProof KArmImpl AvxAProof AvxAImpl Table TableProof Genkat VocabKat GenkatProof GenkatImpl GenkatMore Getcycles VocabGet.
From Verif Require Spec.
Open Scope N_scope.
Local Notation length := List.length.

Notation rbytes := rand_bytes.
Lemma rbytes_length rnd i len : length (rbytes rnd i len) = len.
Proof. unfold rand_bytes. now rewrite map_length, seq_length. Qed.
Lemma rbytes_S rnd i len : rbytes rnd i (S len) = rbytes rnd i len ++ [rand_byte (rnd (i + N.of_nat len))].
Proof. unfold rand_bytes. rewrite seq_S, map_app. reflexivity. Qed.
Lemma rbytes_bytes rnd i len : bytes (rbytes rnd i len).
Proof.
  unfold rand_bytes. apply Forall_forall. intros x Hx. apply in_map_iff in Hx. destruct Hx as (j & <- & _). unfold rand_byte.
  pose proof (Z.mod_pos_bound (rnd (i + N.of_nat j)) 256 ltac:(lia)). lia.
Qed.

Lemma runs_fill rnd m p len r0 : room m p (N.to_nat len) -> runs (fill rnd p len r0) m tt (putp m p (rbytes rnd r0 (N.to_nat len))).
Proof.
  intros Hr. unfold fill.
  apply (runs_for (fun _ => tt) (fun k => putp m p (rbytes rnd r0 k))).
  - intros k Hk.
    assert (Rk : room m p (length (rbytes rnd r0 k))) by (rewrite rbytes_length; intros i Hi; apply Hr; lia).
    eapply runs_eq; [apply runs_store1|reflexivity|].
    + rewrite inside_putp by exact Rk. now apply Hr.
    + rewrite rbytes_S. rewrite <- putp_app_bytes; [now rewrite rbytes_length|].
      rewrite app_length, rbytes_length. cbn [List.length]. intros i Hi. apply Hr. lia.
  - reflexivity.
  - unfold rand_bytes. cbn [seq map]. apply putp_nil.
  - reflexivity.
  - reflexivity.
Qed.

Lemma the_lens_le mlen : In mlen the_lens -> 1 <= mlen <= 32768.
Proof. unfold the_lens. cbn [In]. lia. Qed.

Section Runs.
  Variables (gg : mem -> Prop) (ready : N -> mem -> Prop) (done : N -> N -> mem -> Prop) (init call : N -> M unit).
  Hypothesis init_ready : forall r m, gg m -> ends (init r) m (fun _ m' => ready r m').
  Hypothesis call_ok : forall r mlen m, In mlen the_lens -> ready r m -> ends (call mlen) m (fun _ m' => done r mlen m').
  Hypothesis ready_gg : forall r m, ready r m -> gg m.
  Hypothesis done_ready : forall r mlen m, done r mlen m -> ready r m.
  Variables (W : N) (clk : N -> N).
  Hypothesis HW : 0 < W.
  Hypothesis Hclk : forward clk.
  Lemma diff_ok a b : a <= b -> (b mod W + W - a mod W) mod W = (b - a) mod W.
  Proof.
    clear - HW. intros H. rewrite <- (N.mod_add (b mod W + W - a mod W) (b / W + a / W) W) by lia.
    pose proof (N.mod_lt a W ltac:(lia)) as La. pose proof (N.div_mod a W ltac:(lia)) as Da. pose proof (N.div_mod b W ltac:(lia)) as Db.
    pose proof (N.div_le_mono a b W ltac:(lia) H) as Ld.
    replace (b mod W + W - a mod W + (b / W + a / W) * W) with ((b - a) + (2 * (a / W) + 1) * W) by nia. apply N.mod_add. lia.
  Qed.

  Lemma measure_ok r mlen m : In mlen the_lens -> gg m ->
    ends (measure W clk init call r mlen) m (fun x m' => x = elapsed clk r mod W /\ done r mlen m').
  Proof.
    intros Hm G. unfold measure. cbv zeta. eapply ends_bind; [apply init_ready, G|]. intros u1 m1 R1. cbv beta in R1.
    pose proof (the_lens_le mlen Hm) as Lm.
    assert (D : N.to_nat (NUM_BYTES / mlen) = S (pred (N.to_nat (NUM_BYTES / mlen)))).
    { assert (1 <= NUM_BYTES / mlen) by (apply N.div_le_lower_bound; unfold NUM_BYTES; lia). lia. }
    eapply ends_bind.
    - apply (ends_for (fun k _ m' => match k with O => ready r m' | S _ => done r mlen m' end)); [|exact R1].
      intros k u m' _ Gk. eapply ends_weaken; [apply (call_ok r mlen m' Hm); destruct k; [exact Gk|apply (done_ready _ _ _ Gk)]|]. intros u2 m2 D2. exact D2.
    - intros u m' Gd. rewrite D in Gd. apply ends_ret. split; [|exact Gd]. unfold elapsed. apply diff_ok, Hclk. lia.
  Qed.

  Lemma row_ok i mlen m : In mlen the_lens -> gg m ->
    ends (row W clk init call i mlen) m (fun x m' => x = map (fun j => elapsed clk (16 * i + N.of_nat j) mod W) (seq 0 16) /\ done (16 * i + 15) mlen m').
  Proof.
    intros Hm G. unfold row.
    eapply ends_weaken.
    - apply (ends_for (fun k x m' => x = map (fun j => elapsed clk (16 * i + N.of_nat j) mod W) (seq 0 k) /\
        match k with O => gg m' | S k => done (16 * i + N.of_nat k) mlen m' end)); [|split; [reflexivity|exact G]].
      intros k x m' _ (-> & Gk). eapply ends_bind.
      + apply (measure_ok (i * NUM_RUNS + N.of_nat k) mlen m' Hm). destruct k; [exact Gk|apply (ready_gg _ _ (done_ready _ _ _ Gk))].
      + intros x m2 (-> & D2). apply ends_ret. replace (i * NUM_RUNS + N.of_nat k) with (16 * i + N.of_nat k) in * by (unfold NUM_RUNS; lia).
        split; [|exact D2]. now rewrite seq_S, map_app.
    - intros x m' H. exact H.
  Qed.

  Lemma table_go ls : (forall l, In l ls -> In l the_lens) -> forall i m, gg m ->
    ends (table W clk init call i ls) m (fun t m' =>
      t = map (fun k => map (fun j => elapsed clk (16 * (i + N.of_nat k) + N.of_nat j) mod W) (seq 0 16)) (seq 0 (length ls)) /\ gg m').
  Proof.
    induction ls as [|mlen ls IH]; intros Hl i m G; cbn [table List.length].
    - apply ends_ret. split; [reflexivity|exact G].
    - eapply ends_bind; [apply row_ok; [apply Hl; now left|exact G]|]. intros x m1 (-> & D1).
      eapply ends_bind; [apply (IH (fun l H => Hl l (or_intror H)) (i + 1) m1), (ready_gg _ _ (done_ready _ _ _ D1))|]. intros y m2 (-> & G2). apply ends_ret.
      split; [|exact G2]. change (seq 0 (S (length ls))) with (0%nat :: seq 1 (length ls)). rewrite map_cons. f_equal.
      + apply map_ext. intros j. do 2 f_equal. lia.
      + rewrite <- seq_shift, map_map. apply map_ext. intros k. apply map_ext. intros j. do 2 f_equal. lia.
  Qed.

  Lemma main_ok rne factor qs m : gg m ->
    ends (main rne factor qs W clk init call) m (fun l m' =>
      l = printed rne factor (map (fun i => qs (map (fun j => elapsed clk (16 * N.of_nat i + N.of_nat j) mod W) (seq 0 16))) (seq 0 7)) /\ gg m').
  Proof.
    intros G. unfold main. eapply ends_bind; [apply (table_go mlens (fun l H => H) 0 m G)|]. intros t m' (-> & G'). apply ends_ret. split; [|exact G'].
    f_equal.
  Qed.
End Runs.

Section Aead.
  Variables (v : variant) (cf : cfg) (cs : list (list N)) (ex : ext) (X : aead) (mm : mem) (n : nat).
  Hypothesis HX : impl_of v cf cs ex X.
  Hypothesis Hc : consts_ok cs mm.
  Hypothesis Hn : (length cs <= n)%nat.
  Hypothesis Al : aligned cf (P (n + 3) 0) 8 = true.
  Hypothesis Hex : get_calls ex n.
  Variable rnd : N -> Z.

  Definition gg (m : mem) : Prop := globals n m /\ rest_same n mm m.

  Lemma gg_put m i bs : gg m -> (i < 6)%nat -> (length bs <= length (blk m (n + i)))%nat -> gg (putp m (P (n + i) 0) bs).
  Proof.
    intros [(G0 & G1 & G2 & G3 & G4 & G5 & G6) (R1 & R2)] Hi Hl.
    assert (Hr : room m (P (n + i) 0) (length bs)) by (apply room_of_le; cbn [pb po]; exact Hl).
    split; [|split].
    - unfold globals. rewrite putp_length, !blk_putp_len by exact Hr. repeat split; assumption.
    - now rewrite putp_length.
    - intros b Hb. rewrite blk_putp_other by (cbn [pb]; lia). now apply R2.
  Qed.

  (* the inputs of run r are in place *)
  Definition mbytes r := rbytes rnd (r * aead_rands) (N.to_nat 32768).
  Definition kbytes r := rbytes rnd (r * aead_rands + 32768 + 32768) 16.
  Definition nonce r := rbytes rnd (r * aead_rands + 32768 + 32768 + 16) 16.
  Definition ready r (m : mem) : Prop :=
    gg m /\ blk m n = map Some (mbytes r) /\ blk m (n + 4) = map Some (nonce r) /\ blk m (n + 5) = map Some (kbytes r).

  Lemma init_ready r m : gg m -> ends (init_aead rnd (P n 0) (P (n + 1) 0) (P (n + 5) 0) (P (n + 4) 0) r) m (fun _ m' => ready r m').
  Proof.
    intros G. unfold init_aead. cbv zeta.
    assert (Q : forall m i len r0, gg m -> (i < 6)%nat -> N.of_nat (length (blk m (n + i))) = len ->
      runs (fill rnd (P (n + i) 0) len r0) m tt (putp m (P (n + i) 0) (rbytes rnd r0 (N.to_nat len))) /\
      gg (putp m (P (n + i) 0) (rbytes rnd r0 (N.to_nat len))) /\
      blk (putp m (P (n + i) 0) (rbytes rnd r0 (N.to_nat len))) (n + i) = map Some (rbytes rnd r0 (N.to_nat len)) /\
      (forall b, b <> (n + i)%nat -> blk (putp m (P (n + i) 0) (rbytes rnd r0 (N.to_nat len))) b = blk m b)).
    { clear m G. intros m i len r0 G Hi Hl. split; [|split; [|split]].
      - apply runs_fill. apply room_of_le. cbn [pb po]. change (N.to_nat 0) with 0%nat. lia.
      - apply gg_put; [exact G|exact Hi|]. rewrite rbytes_length. lia.
      - apply blk_put_all; [destruct G as [(G0 & _) _]; lia|]. rewrite rbytes_length. lia.
      - intros b Hb. apply blk_putp_other. cbn [pb]. congruence. }
    pose proof G as [(G0 & G1 & G2 & G3 & G4 & G5 & G6) _].
    destruct (Q m 0%nat 32768 (r * aead_rands) G) as (R0 & H0 & B0 & O0); [lia|now rewrite Nat.add_0_r|]. rewrite Nat.add_0_r in R0, H0, B0, O0.
    eapply ends_step; [exact R0|]. set (m0 := putp m _ _) in *. clearbody m0. clear R0.
    destruct (Q m0 1%nat 32768 (r * aead_rands + MAX_LEN) H0) as (R1 & H1 & B1 & O1); [lia|rewrite O0 by lia; exact G2|].
    eapply ends_step; [exact R1|]. set (m1 := putp m0 _ _) in *. clearbody m1. clear R1.
    destruct (Q m1 5%nat 16 (r * aead_rands + MAX_LEN + MAX_LEN) H1) as (R2 & H2 & B2 & O2); [lia|rewrite O1, O0, G6 by lia; reflexivity|].
    eapply ends_step; [exact R2|]. set (m2 := putp m1 _ _) in *. clearbody m2. clear R2.
    destruct (Q m2 4%nat 16 (r * aead_rands + MAX_LEN + MAX_LEN + KEYBYTES) H2) as (R3 & H3 & B3 & O3); [lia|rewrite O2, O1, O0, G5 by lia; reflexivity|].
    exists tt, (putp m2 (P (n + 4) 0) (rbytes rnd (r * aead_rands + MAX_LEN + MAX_LEN + KEYBYTES) (N.to_nat 16))). split; [exact R3|].
    split; [exact H3|]. split; [|split].
    - rewrite O3, O2, O1, B0 by lia. unfold mbytes. reflexivity.
    - rewrite B3. unfold nonce, MAX_LEN, KEYBYTES. change (N.to_nat 16) with 16%nat. reflexivity.
    - rewrite O3, B2 by lia. unfold kbytes, MAX_LEN. change (N.to_nat 16) with 16%nat. reflexivity.
  Qed.

  Definition msg r mlen := firstn (N.to_nat mlen) (mbytes r).
  Definition done r mlen (m : mem) : Prop :=
    ready r m /\ has m (P (n + 2) 0) (Spec.isap_encrypt (v_inst v) (kbytes r) (nonce r) [] (msg r mlen)) /\ has m (P (n + 3) 0) (word_le 8 (mlen + 16)).

  Lemma call_ok r mlen m : In mlen the_lens -> ready r m ->
    ends (call_aead X (P (n + 2) 0) (P (n + 3) 0) (P n 0) (P (n + 1) 0) (P (n + 4) 0) (P (n + 5) 0) mlen) m (fun _ m' => done r mlen m').
  Proof.
    intros Hm (G & BM & BN & BK). assert (HI := impl_of_ok v cf cs ex X HX). pose proof (the_lens_le mlen Hm) as Lm.
    pose proof G as [(G0 & G1 & G2 & G3 & G4 & G5 & G6) (R1 & R2)].
    assert (Em : N.of_nat (N.to_nat mlen) = mlen) by lia.
    assert (E := Hex m (N.to_nat mlen) (proj1 G) ltac:(now rewrite Em)).
    set (T := msg r mlen).
    assert (LT : length T = N.to_nat mlen) by (unfold T, msg, mbytes; rewrite firstn_length, rbytes_length; lia).
    assert (BT : bytes T) by (unfold T, msg; apply bytes_firstn, rbytes_bytes).
    assert (HT : has m (P n 0) T) by (unfold T, msg; now apply has_blk_pre).
    assert (LN : N.of_nat (length T) = mlen) by (rewrite LT; exact Em).
    rewrite <- LT in E. change (ex m (P (n + 5) 0) (P (n + 4) 0) (P (n + 1) 0) (length (@nil N)) (P n 0) (P (n + 2) 0) (length T)) in E.
    unfold done. fold T. clearbody T.
    assert (V : enc_valid cf cs m (P (n + 2) 0) (P (n + 3) 0) (P n 0) (P (n + 1) 0) (P (n + 4) 0) (P (n + 5) 0) (kbytes r) (nonce r) [] T).
    { assert (2 ^ 64 = 18446744073709551616) by reflexivity.
      constructor.
      - intros i Hi. rewrite R2 by lia. now apply Hc.
      - split; [split; [apply rbytes_bytes|now apply has_blk0]|apply rbytes_length].
      - split; [split; [apply rbytes_bytes|now apply has_blk0]|apply rbytes_length].
      - split; [split; [constructor|intros i Hi; cbn [List.length] in Hi; lia]|cbn [List.length]; lia].
      - split; [split; auto|lia].
      - split; [|cbn [pb]; lia]. apply room_of_le. cbn [pb po]. change (N.to_nat 0) with 0%nat. lia.
      - split; [|split; [cbn [pb]; lia|exact Al]]. apply room_of_le. cbn [pb po]. rewrite G4. reflexivity.
      - repeat split; apply disj_blocks; cbn [pb]; lia.
      - repeat split; apply disj_blocks; cbn [pb]; lia.
      - apply fwd_ok_disj, disj_blocks. cbn [pb]. lia. }
    pose proof (ioi_enc _ _ _ _ _ HI _ _ _ _ _ _ _ _ _ _ _ E V) as Hr.
    assert (LY : length (Spec.isap_encrypt (v_inst v) (kbytes r) (nonce r) [] T) = (length T + 16)%nat).
    { apply v_encrypt_length; auto; try apply rbytes_bytes; try apply rbytes_length. constructor. }
    set (Y := Spec.isap_encrypt _ _ _ _ _) in *. clearbody Y. rewrite LN in Hr. change (N.of_nat (length (@nil N))) with 0 in Hr.
    unfold call_aead. eapply ends_step; [exact Hr|]. apply ends_ret.
    assert (C1 : gg (putp m (P (n + 3) 0) (word_le 8 (mlen + 16)))) by (apply gg_put; auto; rewrite word_le_length, G4; lia).
    pose proof C1 as [(_ & _ & _ & D3 & _) _].
    assert (C2 : gg (putp (putp m (P (n + 3) 0) (word_le 8 (mlen + 16))) (P (n + 2) 0) Y)) by (apply gg_put; auto; lia).
    assert (Rm : room (putp m (P (n + 3) 0) (word_le 8 (mlen + 16))) (P (n + 2) 0) (length Y)).
    { apply room_of_le. cbn [pb po]. change (N.to_nat 0) with 0%nat. lia. }
    split; [|split].
    - split; [exact C2|]. split; [|split]; rewrite !blk_putp_other by (cbn [pb]; lia); assumption.
    - now apply has_putp_same.
    - apply has_putp_disj; auto; [|apply disj_blocks; cbn [pb]; lia]. apply has_putp_same.
      apply room_of_le. cbn [pb po]. rewrite word_le_length, G4. reflexivity.
  Qed.


  Notation init := (init_aead rnd (P n 0) (P (n + 1) 0) (P (n + 5) 0) (P (n + 4) 0)).
  Notation call := (call_aead X (P (n + 2) 0) (P (n + 3) 0) (P n 0) (P (n + 1) 0) (P (n + 4) 0) (P (n + 5) 0)).
  Lemma aead_measure W clk r mlen : 0 < W -> forward clk -> globals n mm -> In mlen the_lens -> exists m',
    runs (measure W clk init call r mlen) mm (elapsed clk r mod W) m' /\ done r mlen m'.
  Proof.
    intros HW Hf G Hm.
    destruct (measure_ok gg ready done init call init_ready call_ok (fun r m H => proj1 H) (fun r mlen m H => proj1 H) W clk HW Hf r mlen mm Hm)
      as (x & m' & R & -> & D); [split; [exact G|now split]|]. now exists m'.
  Qed.
  Lemma aead_main W clk rne factor qs : 0 < W -> forward clk -> globals n mm -> exists m',
    runs (main rne factor qs W clk init call) mm
      (printed rne factor (map (fun i => qs (map (fun j => elapsed clk (16 * N.of_nat i + N.of_nat j) mod W) (seq 0 16))) (seq 0 7))) m' /\
    rest_same n mm m'.
  Proof.
    intros HW Hf G.
    destruct (main_ok gg ready done init call init_ready call_ok (fun r m H => proj1 H) (fun r mlen m H => proj1 H) W clk HW Hf rne factor qs mm)
      as (x & m' & R & -> & D); [split; [exact G|now split]|]. exists m'. split; [exact R|apply D].
  Qed.
End Aead.

Lemma aead_texts rnd r mlen : kbytes rnd r = key_of rnd r /\ nonce rnd r = nonce_of rnd r /\ msg rnd r mlen = text_of rnd r mlen.
Proof.
  unfold kbytes, key_of, nonce, nonce_of, msg, text_of, mbytes, aead_rands, MAX_LEN, KEYBYTES, NPUBBYTES.
  replace (65568 * r) with (r * (32768 + 32768 + 16 + 16)) by lia.
  replace (r * (32768 + 32768 + 16 + 16) + 32768 + 32768 + 16) with (r * (32768 + 32768 + 16 + 16) + 65552) by lia.
  replace (r * (32768 + 32768 + 16 + 16) + 32768 + 32768) with (r * (32768 + 32768 + 16 + 16) + 65536) by lia. auto.
Qed.

Lemma aead_measure_out v cf cs ex X mm n rnd W clk r mlen : impl_of v cf cs ex X -> consts_ok cs mm -> (length cs <= n)%nat ->
  aligned cf (P (n + 3) 0) 8 = true -> get_calls ex n -> globals n mm -> 0 < W -> forward clk -> In mlen the_lens -> exists m',
  runs (measure W clk (init_aead rnd (P n 0) (P (n + 1) 0) (P (n + 5) 0) (P (n + 4) 0))
    (call_aead X (P (n + 2) 0) (P (n + 3) 0) (P n 0) (P (n + 1) 0) (P (n + 4) 0) (P (n + 5) 0)) r mlen) mm (elapsed clk r mod W) m' /\
  globals n m' /\ rest_same n mm m' /\
  has m' (P (n + 2) 0) (Spec.isap_encrypt (v_inst v) (key_of rnd r) (nonce_of rnd r) [] (text_of rnd r mlen)) /\
  has m' (P (n + 3) 0) (word_le 8 (mlen + 16)).
Proof.
  intros HX Hc Hn Al He G HW Hf Hm. destruct (aead_texts rnd r mlen) as (<- & <- & <-).
  destruct (aead_measure v cf cs ex X mm n HX Hc Hn Al He rnd W clk r mlen HW Hf G Hm) as (m' & R & ((G1 & G2) & _) & H1 & H2).
  exists m'. auto.
Qed.

(* ---------- crypto_hash ---------- *)

Section Hash.
  Variables (hash : ptr -> ptr -> N -> M Z) (H : list N -> list N) (mm : mem) (n : nat) (rnd : N -> Z).
  Definition hg (m : mem) : Prop := globals_hash n m /\ rest_same n mm m.
  Hypothesis Hh : forall m t, hg m -> bytes t -> has m (P n 0) t -> N.of_nat (length t) <= 32768 ->
    exists z, runs (hash (P (n + 1) 0) (P n 0) (N.of_nat (length t))) m z (putp m (P (n + 1) 0) (H t)) /\ length (H t) = 32%nat.

  Lemma hg_put m i bs : hg m -> (i < 2)%nat -> (length bs <= length (blk m (n + i)))%nat -> hg (putp m (P (n + i) 0) bs).
  Proof.
    intros [(G0 & G1 & G2) (R1 & R2)] Hi Hl.
    assert (Hr : room m (P (n + i) 0) (length bs)) by (apply room_of_le; cbn [pb po]; exact Hl).
    split; [|split].
    - unfold globals_hash. rewrite putp_length, !blk_putp_len by exact Hr. repeat split; assumption.
    - now rewrite putp_length.
    - intros b Hb. rewrite blk_putp_other by (cbn [pb]; lia). now apply R2.
  Qed.

  Definition hready r (m : mem) : Prop := hg m /\ blk m n = map Some (rbytes rnd (r * MAX_LEN) (N.to_nat 32768)).
  Definition hdone r mlen (m : mem) : Prop := hready r m /\ has m (P (n + 1) 0) (H (hashed_of rnd r mlen)).

  Lemma hinit_ready r m : hg m -> ends (init_hash rnd (P n 0) r) m (fun _ m' => hready r m').
  Proof.
    intros G. pose proof G as [(G0 & G1 & G2) _]. unfold init_hash.
    exists tt, (putp m (P n 0) (rbytes rnd (r * MAX_LEN) (N.to_nat 32768))). split; [|split].
    - apply (runs_fill rnd m (P n 0) 32768). apply room_of_le. cbn [pb po]. change (N.to_nat 0) with 0%nat. lia.
    - replace (P n 0) with (P (n + 0) 0) by (now rewrite Nat.add_0_r). apply hg_put; [exact G|lia|]. rewrite rbytes_length, Nat.add_0_r. lia.
    - apply blk_put_all; [lia|]. rewrite rbytes_length. lia.
  Qed.

  Lemma hcall_ok r mlen m : In mlen the_lens -> hready r m -> ends (call_hash hash (P (n + 1) 0) (P n 0) mlen) m (fun _ m' => hdone r mlen m').
  Proof.
    intros Hm (G & B). pose proof (the_lens_le mlen Hm) as Lm. pose proof G as [(G0 & G1 & G2) _].
    assert (ET : hashed_of rnd r mlen = firstn (N.to_nat mlen) (rbytes rnd (r * MAX_LEN) (N.to_nat 32768))).
    { unfold hashed_of, MAX_LEN. now rewrite (N.mul_comm 32768 r). }
    assert (LT : N.of_nat (length (hashed_of rnd r mlen)) = mlen) by (rewrite ET, firstn_length, rbytes_length; lia).
    assert (BT : bytes (hashed_of rnd r mlen)) by (rewrite ET; apply bytes_firstn, rbytes_bytes).
    assert (HT : has m (P n 0) (hashed_of rnd r mlen)) by (rewrite ET; now apply has_blk_pre).
    unfold hdone. set (T := hashed_of rnd r mlen) in *. clearbody T.
    destruct (Hh m T G BT HT) as (z & R & L); [lia|]. rewrite LT in R.
    unfold call_hash. eapply ends_step; [exact R|]. apply ends_ret. split; [split|].
    - apply hg_put; [exact G|lia|lia].
    - rewrite blk_putp_other by (cbn [pb]; lia). exact B.
    - apply has_putp_same, room_of_le. cbn [pb po]. change (N.to_nat 0) with 0%nat. lia.
  Qed.

  Lemma hash_measure W clk r mlen : 0 < W -> forward clk -> globals_hash n mm -> In mlen the_lens -> exists m',
    runs (measure W clk (init_hash rnd (P n 0)) (call_hash hash (P (n + 1) 0) (P n 0)) r mlen) mm (elapsed clk r mod W) m' /\
    globals_hash n m' /\ rest_same n mm m' /\ has m' (P (n + 1) 0) (H (hashed_of rnd r mlen)).
  Proof.
    intros HW Hf G Hm.
    destruct (measure_ok hg hready hdone _ _ hinit_ready hcall_ok (fun r m H => proj1 H) (fun r mlen m H => proj1 H) W clk HW Hf r mlen mm Hm)
      as (x & m' & R & -> & (((G1 & G2) & _) & D)); [split; [exact G|now split]|]. now exists m'.
  Qed.
  Lemma hash_main W clk rne factor qs : 0 < W -> forward clk -> globals_hash n mm -> exists m',
    runs (main rne factor qs W clk (init_hash rnd (P n 0)) (call_hash hash (P (n + 1) 0) (P n 0))) mm
      (printed rne factor (map (fun i => qs (map (fun j => elapsed clk (16 * N.of_nat i + N.of_nat j) mod W) (seq 0 16))) (seq 0 7))) m' /\
    rest_same n mm m'.
  Proof.
    intros HW Hf G.
    destruct (main_ok hg hready hdone _ _ hinit_ready hcall_ok (fun r m H => proj1 H) (fun r mlen m H => proj1 H) W clk HW Hf rne factor qs mm)
      as (x & m' & R & -> & D); [split; [exact G|now split]|]. exists m'. split; [exact R|apply D].
  Qed.
End Hash.

Lemma fam_call a cf mm n m t : In a (fam_opt ++ fam_stp) -> (forall i, (i < 4)%nat -> al8 cf (P i 0)) -> al8 cf (P n 0) -> al8 cf (P (n + 1) 0) ->
  consts_ok opt_consts mm -> (4 <= n)%nat -> hg mm n m -> bytes t -> has m (P n 0) t -> N.of_nat (length t) <= 32768 ->
  exists z, runs (OptIsap.crypto_hash a cf (P (n + 1) 0) (P n 0) (N.of_nat (length t))) m z (putp m (P (n + 1) 0) (Spec.ascon_hash t)) /\
    length (Spec.ascon_hash t) = 32%nat.
Proof.
  intros Ha Hal Ai Ao Hc Hn ((G0 & G1 & G2) & (R1 & R2)) Bt Ht Lt. exists 0%Z.
  apply fam_hash; auto.
  - intros i Hi. assert (length opt_consts = 4%nat) by reflexivity. rewrite R2 by lia. now apply Hc.
  - split; assumption.
  - assert (2 ^ 64 = 18446744073709551616) by reflexivity. lia.
  - apply room_of_le. cbn [pb po]. rewrite G2. reflexivity.
Qed.

(* ---------- when the calls meet the conditions of the table ---------- *)

Lemma gcalls_any n : get_calls any_call n.
Proof. intros m t _ _. exact Logic.I. Qed.
Lemma gcalls_loc (loc : nat -> Prop) n : (forall b, (n + 6 <= b)%nat -> loc b) -> get_calls (loc_ext loc) n.
Proof. intros H m t (L & _) _ b Hb. apply H. lia. Qed.
Lemma gcalls_six n : get_calls six_more n.
Proof. intros m t (L & _ & LA & _) Ht. right. apply room_of_le. cbn [pb po]. change (N.to_nat 0) with 0%nat. change (0 / 18)%nat with 0%nat. lia. Qed.
Lemma pow16 UL : 16 <= UL -> 65536 <= 2 ^ UL.
Proof. intros H. change 65536 with (2 ^ 16). apply N.pow_le_mono_r; lia. Qed.
Lemma gcalls_avx UL n : 16 <= UL -> get_calls (avx_lens UL) n.
Proof.
  intros H m t _ Ht. pose proof (pow16 UL H). apply the_lens_le in Ht. assert (2 ^ 63 = 9223372036854775808) by reflexivity. unfold avx_lens. repeat split; lia.
Qed.
Lemma gcalls_ul UL n : 16 <= UL -> get_calls (fun _ _ _ _ a _ _ t => N.of_nat a < 2 ^ UL /\ N.of_nat t < 2 ^ UL) n.
Proof. intros H m t _ Ht. pose proof (pow16 UL H). apply the_lens_le in Ht. split; lia. Qed.
Lemma gcalls_al8 cf n : (forall i, (i < 6)%nat -> al8 cf (P (n + i) 0)) ->
  get_calls (fun _ k npub ad _ p q _ => al8 cf k /\ al8 cf npub /\ al8 cf ad /\ al8 cf p /\ al8 cf q) n.
Proof.
  intros H m t _ _. assert (H0 : al8 cf (P n 0)) by (rewrite <- (Nat.add_0_r n); apply H; lia).
  repeat split; auto; apply H; lia.
Qed.
Lemma gcalls_arm cf n : strict cf = false -> get_calls (arm_call cf) n.
Proof.
  intros H m t (L & _) Ht. assert (2 ^ 32 = 4294967296) by reflexivity. apply the_lens_le in Ht.
  assert (E : forall p k, even_if_long cf p k) by (intros p k Hs; congruence).
  split; [split; [unfold arm_lens; lia|intros b Hb E'; congruence]|repeat split; apply E].
Qed.

Lemma counter_wraps v cf cs ex X mm n rnd clk r mlen : impl_of v cf cs ex X -> consts_ok cs mm -> (length cs <= n)%nat ->
  aligned cf (P (n + 3) 0) 8 = true -> get_calls ex n -> globals n mm -> forward clk -> In mlen the_lens -> 2 ^ 32 <= elapsed clk r -> exists m' x,
  runs (measure (2 ^ 32) clk (init_aead rnd (P n 0) (P (n + 1) 0) (P (n + 5) 0) (P (n + 4) 0))
    (call_aead X (P (n + 2) 0) (P (n + 3) 0) (P n 0) (P (n + 1) 0) (P (n + 4) 0) (P (n + 5) 0)) r mlen) mm x m' /\
  x < elapsed clk r.
Proof.
  intros HX Hc Hn Al He G Hf Hm Hw.
  destruct (aead_measure_out v cf cs ex X mm n rnd (2 ^ 32) clk r mlen HX Hc Hn Al He G eq_refl Hf Hm) as (m' & R & _).
  exists m', (elapsed clk r mod 2 ^ 32). split; [exact R|]. eapply N.lt_le_trans; [apply N.mod_lt; discriminate|exact Hw].
Qed.

Definition get_mem : mem := map (map Some) opt_consts ++ [uninit (N.to_nat 32768); uninit (N.to_nat 32768); uninit (N.to_nat 32784); uninit 8; uninit 16; uninit 16].
Lemma ex_getting : impl_of A128A lax_cf opt_consts any_call (opt_impl opt_64 lax_cf (repeat 0 5)) /\ consts_ok opt_consts get_mem /\
  aligned lax_cf (P (4 + 3) 0) 8 = true /\ globals 4 get_mem /\ forward (fun i => 5000000000 * i) /\ 2 ^ 32 <= elapsed (fun i => 5000000000 * i) 3.
Proof.
  split; [apply io_opt; [now left|reflexivity|reflexivity]|]. split.
  { intros i Hi. unfold get_mem, blk. rewrite app_nth1 by (rewrite map_length; exact Hi). now apply nth_map_lt. }
  split; [reflexivity|]. split; [|split].
  - split; [reflexivity|].
    assert (B : forall j, blk get_mem (4 + j) = nth j [uninit (N.to_nat 32768); uninit (N.to_nat 32768); uninit (N.to_nat 32784); uninit 8; uninit 16; uninit 16] []).
    { intros j. unfold get_mem, blk. rewrite app_nth2 by (rewrite map_length; change (length opt_consts) with 4%nat; lia). f_equal.
      rewrite map_length. change (length opt_consts) with 4%nat. lia. }
    pose proof (B 0%nat) as B0. cbn [Nat.add] in B0. rewrite B0, !B. cbn [nth]. rewrite !uninit_length, !N2Nat.id. repeat split.
  - intros i j H. lia.
  - unfold elapsed. discriminate.
Qed.
