(* Consequences of impl_ok for the users of the two API functions. Proofs only. *)
From Verif Require Import Base SpecPerm Words Mem Vocab MemProof RefLib Spec RefProof RefAead SpecFacts.
Open Scope N_scope.

Lemma runs_det {A} (f : M A) m a1 m1 a2 m2 : runs f m a1 m1 -> runs f m a2 m2 -> a1 = a2 /\ m1 = m2.
Proof.
  intros H1 H2. destruct (H1 []) as [t1 E1]. destruct (H2 []) as [t2 E2]. rewrite E1 in E2. injection E2. auto.
Qed.

Lemma fwd_ok_same p n : fwd_ok p p n.
Proof. intros i j H E. unfold padd in E. injection E. lia. Qed.

Lemma fwd_ok_disj p q n : disj p n q n -> fwd_ok p q n.
Proof. intros H i j Hij. apply H; lia. Qed.

Lemma disj_blocks p n q k : pb p <> pb q -> disj p n q k.
Proof. intros H i j _ _ E. apply H. injection E. auto. Qed.

Lemma disj_not_within p n q k i : disj p n q k -> (i < k)%nat -> within p n (padd q (N.of_nat i)) = false.
Proof.
  intros H Hi. destruct (within p n (padd q (N.of_nat i))) eqn:E; auto.
  apply within_inv in E as (j & Hj & Ej). exfalso. exact (H j i Hj Hi Ej).
Qed.

Lemma disj_sym p n q k : disj p n q k -> disj q k p n.
Proof. intros H i j Hi Hj E. symmetry in E. exact (H j i Hj Hi E). Qed.

Lemma cellp_putp_out m p bs q : room m p (length bs) -> within p (length bs) q = false -> cellp (putp m p bs) q = cellp m q.
Proof. intros H E. rewrite cellp_putp by auto. now rewrite E. Qed.

Section Api.
  Variables (v : variant) (cf : cfg) (cs : list (list N)) (loc : nat -> Prop) (X : aead).
  Hypothesis HX : impl_ok (v_inst v) cf cs loc X.
  Notation I := (v_inst v).
  Definition locs (mm : mem) : Prop := forall b, (length mm <= b)%nat -> loc b.

  Section Enc.
    Variables (mm : mem) (c clen m ad npub k : ptr) (K Nn A T : list N).
    Hypothesis Hloc : locs mm.
    Hypothesis V : enc_valid cf cs mm c clen m ad npub k K Nn A T.
    Notation CT := (isap_encrypt I K Nn A T).
    Notation fin := (putp (putp mm clen (word_le 8 (N.of_nat (length T) + 16))) c CT).

    Lemma e_CT : length CT = (length T + 16)%nat /\ bytes CT.
    Proof.
      destruct V as [Vc [[Bk Hk] Lk] [[Bn Hn] Ln] [[Ba Ha] La] [[Bt Ht] Lt] _ _ _ _ _].
      split; [now apply v_encrypt_length|now apply v_encrypt_bytes].
    Qed.

    Lemma e_runs : runs (a_enc X c clen m (N.of_nat (length T)) ad (N.of_nat (length A)) npub k) mm 0%Z fin.
    Proof. now apply (io_enc _ _ _ _ _ HX). Qed.

    Lemma e_room1 : room mm clen (length (word_le 8 (N.of_nat (length T) + 16))).
    Proof. rewrite word_le_length. apply (ev_clen _ _ _ _ _ _ _ _ _ _ _ _ _ V). Qed.
    Lemma e_room2 : room (putp mm clen (word_le 8 (N.of_nat (length T) + 16))) c (length CT).
    Proof. apply room_putp; [apply e_room1|]. rewrite (proj1 e_CT). apply (ev_c _ _ _ _ _ _ _ _ _ _ _ _ _ V). Qed.

    Lemma e_has_c : has fin c CT.
    Proof. apply has_putp_same, e_room2. Qed.
    Lemma e_has_clen : has fin clen (word_le 8 (N.of_nat (length T) + 16)).
    Proof.
      apply has_putp_disj; [apply e_room2|apply has_putp_same, e_room1|].
      rewrite (proj1 e_CT), word_le_length. apply disj_sym, (ev_clen_disj _ _ _ _ _ _ _ _ _ _ _ _ _ V).
    Qed.

    Lemma e_frame q : within c (length T + 16) q = false -> within clen 8 q = false -> cellp fin q = cellp mm q.
    Proof.
      intros H1 H2. rewrite cellp_putp_out; [|apply e_room2|now rewrite (proj1 e_CT)].
      apply cellp_putp_out; [apply e_room1|now rewrite word_le_length].
    Qed.
    Lemma e_length : length fin = length mm.
    Proof. now rewrite !putp_length. Qed.
  End Enc.

  Section Dec.
    Variables (mm : mem) (m mlen c ad npub k : ptr) (K Nn A Y : list N).
    Hypothesis Hloc : locs mm.
    Hypothesis V : dec_valid cf cs mm m mlen c ad npub k K Nn A Y.
    Notation m1 := (putp mm mlen (word_le 8 (N.of_nat (length Y) - 16))).

    Lemma d_room1 : room mm mlen (length (word_le 8 (N.of_nat (length Y) - 16))).
    Proof. rewrite word_le_length. apply (dv_mlen _ _ _ _ _ _ _ _ _ _ _ _ _ V). Qed.

    Lemma d_length T : isap_decrypt I K Nn A Y = Some T -> length T = (length Y - 16)%nat.
    Proof.
      destruct V as [Vc [[Bk Hk] Lk] [[Bn Hn] Ln] [[Ba Ha] La] [[By Hy] [Ly Gy]] _ _ _ _ _].
      now apply v_decrypt_length.
    Qed.

    Lemma d_accept T : isap_decrypt I K Nn A Y = Some T ->
      runs (a_dec X m mlen c (N.of_nat (length Y)) ad (N.of_nat (length A)) npub k) mm 0%Z (putp m1 m T).
    Proof. intros E. pose proof (io_dec _ _ _ _ _ HX _ _ _ _ _ _ _ _ _ _ _ Hloc V) as R. now rewrite E in R. Qed.
    Lemma d_reject : isap_decrypt I K Nn A Y = None ->
      runs (a_dec X m mlen c (N.of_nat (length Y)) ad (N.of_nat (length A)) npub k) mm (-1)%Z m1.
    Proof. intros E. pose proof (io_dec _ _ _ _ _ HX _ _ _ _ _ _ _ _ _ _ _ Hloc V) as R. now rewrite E in R. Qed.

    Lemma d_room2 T : isap_decrypt I K Nn A Y = Some T -> room m1 m (length T).
    Proof.
      intros E. apply room_putp; [apply d_room1|]. rewrite (d_length _ E). apply (dv_m _ _ _ _ _ _ _ _ _ _ _ _ _ V).
    Qed.
    Lemma d_has_m T : isap_decrypt I K Nn A Y = Some T -> has (putp m1 m T) m T.
    Proof. intros E. now apply has_putp_same, d_room2. Qed.
    Lemma d_has_mlen1 : has m1 mlen (word_le 8 (N.of_nat (length Y) - 16)).
    Proof. apply has_putp_same, d_room1. Qed.
    Lemma d_has_mlen2 T : isap_decrypt I K Nn A Y = Some T -> has (putp m1 m T) mlen (word_le 8 (N.of_nat (length Y) - 16)).
    Proof.
      intros E. apply has_putp_disj; [now apply d_room2|apply d_has_mlen1|].
      rewrite (d_length _ E), word_le_length. apply disj_sym, (dv_mlen_disj _ _ _ _ _ _ _ _ _ _ _ _ _ V).
    Qed.
    Lemma d_frame1 q : within mlen 8 q = false -> cellp m1 q = cellp mm q.
    Proof. intros H. apply cellp_putp_out; [apply d_room1|now rewrite word_le_length]. Qed.
    Lemma d_frame2 T q : isap_decrypt I K Nn A Y = Some T -> within m (length Y - 16) q = false -> within mlen 8 q = false ->
      cellp (putp m1 m T) q = cellp mm q.
    Proof.
      intros E H1 H2. rewrite cellp_putp_out; [now apply d_frame1|now apply d_room2|now rewrite (d_length _ E)].
    Qed.
  End Dec.
End Api.

Definition res_of (b : bool) : Z := if b then 0%Z else (-1)%Z.
