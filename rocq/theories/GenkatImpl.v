(* Every implementation in the table, and the STP implementations, driven by the test programs; crypto_hash likewise. Proofs only. *)
From Coq Require Import Ascii String.
From Verif Require Import Base Prog SpecPerm Words Mem Vocab Vocab2 VocabK MemProof RefLib RefProof RefAead RefIsap SpecFacts Api ApiProps ExtProof ExLib
  OptPerm OptIsap OptStp OptProof OptImpl StpProof StpEx A128Impl KIsapProof K64Impl KAvxImpl KArmProof KArmImpl AvxAProof AvxAImpl Table TableProof
  Genkat VocabKat GenkatProof.
From Verif Require Spec.
Open Scope N_scope.
Open Scope cm_scope.
Local Notation length := List.length.

Lemma good_enc_valid cf cs n R m a t : good n R m -> consts_ok cs m -> (length cs <= n)%nat -> aligned cf (P (n + 6) 0) 8 = true ->
  (a <= 32)%nat -> (t <= 32)%nat ->
  enc_valid cf cs m (P (n + 5) 0) (P (n + 6) 0) (P (n + 2) 0) (P (n + 4) 0) (P (n + 1) 0) (P n 0) (count_up 16) (count_up 16) (count_up a) (count_up t).
Proof.
  intros G Hc Hn Al Ha Ht.
  constructor; rewrite ?count_up_length; try split; try lia; try apply count_up_bytes; auto; try reflexivity.
  - split; [apply count_up_bytes|now apply (good_key n R)].
  - split; [apply count_up_bytes|now apply (good_nonce n R)].
  - split; [apply count_up_bytes|now apply (good_ad n R)].
  - split; [apply count_up_bytes|now apply (good_msg n R)].
  - apply room_of_le. cbn [pb po]. rewrite (gd_ct n R m G). change (N.to_nat 0) with 0%nat. lia.
  - cbn [pb]. lia.
  - apply room_of_le. cbn [pb po]. rewrite (gd_clen n R m G). reflexivity.
  - split; [cbn [pb]; lia|exact Al].
  - apply disj_blocks. cbn [pb]. lia.
  - repeat split; apply disj_blocks; cbn [pb]; lia.
  - apply disj_blocks. cbn [pb]. lia.
  - repeat split; apply disj_blocks; cbn [pb]; lia.
  - apply fwd_ok_disj, disj_blocks. cbn [pb]. lia.
Qed.

Lemma good_dec_valid cf cs n R m a t Y : good n R m -> consts_ok cs m -> (length cs <= n)%nat -> aligned cf (P (n + 7) 0) 8 = true ->
  (a <= 32)%nat -> (t <= 32)%nat -> bytes Y -> length Y = (t + 16)%nat -> has m (P (n + 5) 0) Y ->
  dec_valid cf cs m (P (n + 3) 0) (P (n + 7) 0) (P (n + 5) 0) (P (n + 4) 0) (P (n + 1) 0) (P n 0) (count_up 16) (count_up 16) (count_up a) Y.
Proof.
  intros G Hc Hn Al Ha Ht BY LY HY.
  constructor; rewrite ?count_up_length, ?LY; try split; try lia; try apply count_up_bytes; auto; try reflexivity.
  - split; [apply count_up_bytes|now apply (good_key n R)].
  - split; [apply count_up_bytes|now apply (good_nonce n R)].
  - split; [apply count_up_bytes|now apply (good_ad n R)].
  - split; auto.
  - apply room_of_le. cbn [pb po]. rewrite (gd_msg2 n R m G). change (N.to_nat 0) with 0%nat. lia.
  - cbn [pb]. lia.
  - apply room_of_le. cbn [pb po]. rewrite (gd_mlen2 n R m G). reflexivity.
  - split; [cbn [pb]; lia|exact Al].
  - apply disj_blocks. cbn [pb]. lia.
  - repeat split; apply disj_blocks; cbn [pb]; lia.
  - apply disj_blocks. cbn [pb]. lia.
  - repeat split; apply disj_blocks; cbn [pb]; lia.
  - apply fwd_ok_disj, disj_blocks. cbn [pb]. lia.
Qed.

Section Put.
  Variables (n : nat) (R : mem -> Prop).
  Hypothesis R_put : forall m p bs, R m -> (n <= pb p)%nat -> R (putp m p bs).

  (* A write to one of the four buffers that are outputs. *)
  Lemma good_put m i bs : good n R m -> In i [3; 5; 6; 7]%nat -> (length bs <= length (blk m (n + i)))%nat -> good n R (putp m (P (n + i) 0) bs).
  Proof.
    intros G Hi Hl.
    assert (Hr : room m (P (n + i) 0) (length bs)) by (apply room_of_le; cbn [pb po]; exact Hl).
    assert (K : forall j, j <> (n + i)%nat -> blk (putp m (P (n + i) 0) bs) j = blk m j) by (intros; now apply blk_putp_other).
    constructor; try (rewrite blk_putp_len by exact Hr; apply G).
    - rewrite putp_length. apply G.
    - apply R_put; [apply G|cbn [pb]; lia].
    - rewrite K; [apply G|]. cbn [In] in Hi. lia.
    - rewrite K; [apply G|]. cbn [In] in Hi. lia.
    - rewrite K; [apply G|]. cbn [In] in Hi. lia.
    - rewrite K; [apply G|]. cbn [In] in Hi. lia.
  Qed.
End Put.

(* The blocks before n are those of mm. *)
Definition same (mm m : mem) : Prop := forall b, (b < length mm)%nat -> blk m b = blk mm b.
Lemma same_app mm l : same mm (mm ++ l).
Proof. intros b Hb. now apply blk_app1. Qed.
Lemma same_put mm m p bs : same mm m -> (length mm <= pb p)%nat -> same mm (putp m p bs).
Proof. intros H Hp b Hb. rewrite blk_putp_other by lia. now apply H. Qed.
Lemma same_consts cs mm m : consts_ok cs mm -> (length cs <= length mm)%nat -> same mm m -> consts_ok cs m.
Proof. intros Hc Hl Hs i Hi. rewrite Hs by lia. now apply Hc. Qed.
Lemma same_firstn mm m2 k : length m2 = (length mm + k)%nat -> same mm m2 -> firstn (length mm) m2 = mm.
Proof.
  intros L H. apply (nth_ext _ _ [] []).
  - apply firstn_length_le. rewrite L. apply Nat.le_add_r.
  - intros i Hi. assert (E : length (firstn (length mm) m2) = length mm) by (apply firstn_length_le; rewrite L; apply Nat.le_add_r).
    assert (Hi' : (i < length mm)%nat) by exact (eq_ind _ (fun z => (i < z)%nat) Hi _ E).
    rewrite nth_firstn_lt by exact Hi'. now apply H.
Qed.

Lemma ct_len v a t : length (Spec.isap_encrypt (v_inst v) (count_up 16) (count_up 16) (count_up a) (count_up t)) = (t + 16)%nat.
Proof. rewrite v_encrypt_length; rewrite ?count_up_length; auto using count_up_bytes. Qed.
Lemma ct_bytes v a t : bytes (Spec.isap_encrypt (v_inst v) (count_up 16) (count_up 16) (count_up a) (count_up t)).
Proof. apply v_encrypt_bytes; rewrite ?count_up_length; auto using count_up_bytes. Qed.

(* Any implementation that computes the authenticated encryption scheme I. *)
Section ExactDrive.
  Variables (I : Spec.inst) (cf : cfg) (cs : list (list N)) (ex : ext) (X : aead) (mm : mem).
  Notation CT a t := (Spec.isap_encrypt I (count_up 16) (count_up 16) (count_up a) (count_up t)).
  Hypothesis HI : impl_ok_if I cf cs ex X.
  Hypothesis len_I : forall a t, length (CT a t) = (t + 16)%nat.
  Hypothesis bytes_I : forall a t, bytes (CT a t).
  Hypothesis dec_I : forall a t, Spec.isap_decrypt I (count_up 16) (count_up 16) (count_up a) (CT a t) = Some (count_up t).
  Notation n := (length mm).
  Hypothesis Hc : consts_ok cs mm.
  Hypothesis Hn : (length cs <= n)%nat.
  Hypothesis Al : aligned cf (P (n + 6) 0) 8 = true.
  Hypothesis Al' : aligned cf (P (n + 7) 0) 8 = true.
  Hypothesis Hex : kat_calls ex n.

  Lemma exact_drives : drives X cf I n (same mm).
  Proof.
    constructor; auto.
    - intros m a t G Ha Ht.
      assert (Cm : consts_ok cs m) by (apply (same_consts cs mm); auto; apply G).
      assert (V := good_enc_valid cf cs n (same mm) m a t G Cm Hn Al Ha Ht).
      destruct (Hex m a t) as [E _]; auto; [apply G|rewrite (gd_ad _ _ _ G), map_length; apply count_up_length|].
      rewrite <- (count_up_length a), <- (count_up_length t) in E.
      pose proof (ioi_enc _ _ _ _ _ HI _ _ _ _ _ _ _ _ _ _ _ E V) as Hr. rewrite !count_up_length in Hr.
      set (Y := Spec.isap_encrypt _ _ _ _ _) in *. assert (LY : length Y = (t + 16)%nat) by apply len_I. clearbody Y.
      eexists _, _. split; [exact Hr|]. split; [reflexivity|].
      assert (G1 : good n (same mm) (putp m (P (n + 6) 0) (word_le 8 (N.of_nat t + 16)))).
      { apply good_put; [apply same_put|exact G|cbn; auto|]. rewrite word_le_length, (gd_clen _ _ _ G). lia. }
      assert (Rm : room (putp m (P (n + 6) 0) (word_le 8 (N.of_nat t + 16))) (P (n + 5) 0) (length Y)).
      { apply room_of_le. cbn [pb po]. rewrite (gd_ct _ _ _ G1), LY. change (N.to_nat 0) with 0%nat. lia. }
      split; [|split].
      + apply good_put; [apply same_put|exact G1|cbn; auto|]. rewrite LY, (gd_ct _ _ _ G1). lia.
      + now apply has_putp_same.
      + apply has_putp_disj; auto; [|apply disj_blocks; cbn [pb]; lia]. apply has_putp_same.
        apply room_of_le. cbn [pb po]. rewrite word_le_length, (gd_clen _ _ _ G). reflexivity.
    - intros m a t G Ha Ht HY.
      assert (Cm : consts_ok cs m) by (apply (same_consts cs mm); auto; apply G).
      assert (V := good_dec_valid cf cs n (same mm) m a t _ G Cm Hn Al' Ha Ht (bytes_I a t) (len_I a t) HY).
      destruct (Hex m a t) as [_ E]; auto; [apply G|rewrite (gd_ad _ _ _ G), map_length; apply count_up_length|].
      assert (LY := len_I a t).
      assert (ED := dec_I a t).
      set (Y := Spec.isap_encrypt _ _ _ _ _) in *.
      assert (E' : ex m (P n 0) (P (n + 1) 0) (P (n + 4) 0) (length (count_up a)) (P (n + 5) 0) (P (n + 3) 0) (length Y - 16)%nat).
      { rewrite count_up_length, LY. replace (t + 16 - 16)%nat with t by lia. exact E. }
      pose proof (ioi_dec _ _ _ _ _ HI _ _ _ _ _ _ _ _ _ _ _ E' V) as Hr. cbv zeta in Hr.
      rewrite ED in Hr. rewrite LY, count_up_length in Hr. replace (N.of_nat (t + 16)) with (N.of_nat t + 16) in Hr by lia.
      replace (N.of_nat t + 16 - 16) with (N.of_nat t) in Hr by lia. clearbody Y.
      eexists _, _. split; [exact Hr|]. split; [reflexivity|].
      assert (G1 : good n (same mm) (putp m (P (n + 7) 0) (word_le 8 (N.of_nat t)))).
      { apply good_put; [apply same_put|exact G|cbn; auto|]. rewrite word_le_length, (gd_mlen2 _ _ _ G). lia. }
      assert (Rm : room (putp m (P (n + 7) 0) (word_le 8 (N.of_nat t))) (P (n + 3) 0) (length (count_up t))).
      { apply room_of_le. cbn [pb po]. rewrite (gd_msg2 _ _ _ G1), count_up_length. change (N.to_nat 0) with 0%nat. lia. }
      split; [|split].
      + apply good_put; [apply same_put|exact G1|cbn; auto|]. rewrite count_up_length, (gd_msg2 _ _ _ G1). lia.
      + now apply has_putp_same.
      + apply has_putp_disj; auto; [|apply disj_blocks; cbn [pb]; lia]. apply has_putp_same.
        apply room_of_le. cbn [pb po]. rewrite word_le_length, (gd_mlen2 _ _ _ G). reflexivity.
  Qed.

  Lemma exact_genkat : runs (genkat_main X cf true) mm (0%Z, Some (file_name, kat_file I), ""%string) mm.
  Proof.
    destruct (genkat_ok mm (same mm) (same_app mm) (same_put mm) X cf I exact_drives) as (r & m' & Hr & -> & m2 & L & HS & ->).
    rewrite (same_firstn mm m2 8 L HS) in Hr. exact Hr.
  Qed.
  Lemma exact_demo : runs (demo_main X cf) mm (0%Z, kat_entry I 1 32 32) mm.
  Proof.
    destruct (demo_ok mm (same mm) (same_app mm) (same_put mm) X cf I exact_drives) as (r & m' & Hr & -> & m2 & L & HS & ->).
    rewrite (same_firstn mm m2 8 L HS) in Hr. exact Hr.
  Qed.
End ExactDrive.

Section TableDrive.
  Variables (v : variant) (cf : cfg) (cs : list (list N)) (ex : ext) (X : aead) (mm : mem).
  Hypothesis HX : impl_of v cf cs ex X.
  Notation n := (length mm).
  Hypothesis Hc : consts_ok cs mm.
  Hypothesis Hn : (length cs <= n)%nat.
  Hypothesis Al : aligned cf (P (n + 6) 0) 8 = true.
  Hypothesis Al' : aligned cf (P (n + 7) 0) 8 = true.
  Hypothesis Hex : kat_calls ex n.

  Lemma ct_dec a t : Spec.isap_decrypt (v_inst v) (count_up 16) (count_up 16) (count_up a)
    (Spec.isap_encrypt (v_inst v) (count_up 16) (count_up 16) (count_up a) (count_up t)) = Some (count_up t).
  Proof. apply v_decrypt_encrypt; auto using count_up_bytes, count_up_length. Qed.

  Lemma table_genkat : runs (genkat_main X cf true) mm (0%Z, Some (file_name, kat_file (v_inst v)), ""%string) mm.
  Proof.
    exact (exact_genkat (v_inst v) cf cs ex X mm (impl_of_ok v cf cs ex X HX) (ct_len v) (ct_bytes v) ct_dec Hc Hn Al Al' Hex).
  Qed.
  Lemma table_demo : runs (demo_main X cf) mm (0%Z, kat_entry (v_inst v) 1 32 32) mm.
  Proof.
    exact (exact_demo (v_inst v) cf cs ex X mm (impl_of_ok v cf cs ex X HX) (ct_len v) (ct_bytes v) ct_dec Hc Hn Al Al' Hex).
  Qed.
End TableDrive.

(* ---------- when the calls meet the conditions of the table ---------- *)

Lemma calls_any n : kat_calls any_call n.
Proof. intros m a t _ _ _ _. split; exact Logic.I. Qed.
Lemma calls_loc (loc : nat -> Prop) n : (forall b, (n + 8 <= b)%nat -> loc b) -> kat_calls (loc_ext loc) n.
Proof. intros H m a t L _ _ _. split; intros b Hb; apply H; lia. Qed.
Lemma calls_six n : kat_calls six_more n.
Proof.
  intros m a t L LA Ha Ht.
  assert (S : six_more m (P n 0) (P (n + 1) 0) (P (n + 4) 0) a (P (n + 2) 0) (P (n + 5) 0) t).
  { right. apply room_of_le. cbn [pb po]. rewrite LA. change (N.to_nat 0) with 0%nat.
    assert (a / 18 <= 1)%nat by (apply Nat.lt_succ_r, Nat.div_lt_upper_bound; lia). lia. }
  split; exact S.
Qed.
Lemma pow6 UL : 6 <= UL -> 64 <= 2 ^ UL.
Proof. intros H. change 64 with (2 ^ 6). apply N.pow_le_mono_r; lia. Qed.
Lemma calls_avx UL n : 6 <= UL -> kat_calls (avx_lens UL) n.
Proof.
  intros H m a t _ _ Ha Ht. pose proof (pow6 UL H). assert (2 ^ 63 = 9223372036854775808) by reflexivity. unfold avx_lens. split; repeat split; lia.
Qed.
Lemma calls_ul UL n : 6 <= UL -> kat_calls (fun _ _ _ _ a _ _ t => N.of_nat a < 2 ^ UL /\ N.of_nat t < 2 ^ UL) n.
Proof. intros H m a t _ _ Ha Ht. pose proof (pow6 UL H). split; split; lia. Qed.
Lemma calls_al8 cf n : (forall i, (i < 8)%nat -> al8 cf (P (n + i) 0)) ->
  kat_calls (fun _ k npub ad _ p q _ => al8 cf k /\ al8 cf npub /\ al8 cf ad /\ al8 cf p /\ al8 cf q) n.
Proof.
  intros H m a t _ _ _ _. assert (H0 : al8 cf (P n 0)) by (rewrite <- (Nat.add_0_r n); apply H; lia).
  repeat split; auto; apply H; lia.
Qed.
Lemma calls_arm cf n : (forall b, (n + 8 <= b)%nat -> four_ok cf b) ->
  (forall i, (i < 8)%nat -> strict cf = true -> base cf (n + i)%nat mod 2 = 0) -> kat_calls (arm_call cf) n.
Proof.
  intros H H2 m a t L _ Ha Ht. assert (2 ^ 32 = 4294967296) by reflexivity.
  assert (E : forall i k, (i < 8)%nat -> even_if_long cf (P (n + i) 0) k).
  { intros i k Hi Hs _. cbn [pb po]. rewrite N.add_0_r. now apply H2. }
  split; (split; [split; [unfold arm_lens; lia|intros b Hb; apply H; lia]|repeat split; apply E; lia]).
Qed.

(* ---------- STP: the blocks of the two globals may change ---------- *)

Definition same_but (mm m : mem) : Prop :=
  (forall b, (b < length mm)%nat -> b <> 4%nat -> b <> 5%nat -> blk m b = blk mm b) /\
  length (blk m 4) = length (blk mm 4) /\ length (blk m 5) = length (blk mm 5).

Section StpDrive.
  Variables (a : asconp) (cf : cfg) (junk : list N) (mm : mem).
  Hypothesis Ia : In a fam_stp.
  Hypothesis Hs : strict cf = false.
  Hypothesis Hj : length junk = 5%nat.
  Notation n := (length mm).
  Notation X := (stp_impl a cf junk).
  Hypothesis Hc : consts_ok opt_consts mm.
  Hypothesis Hn : (6 <= n)%nat.
  Hypothesis H4 : (8 <= length (blk mm 4))%nat.
  Hypothesis H5 : (8 <= length (blk mm 5))%nat.

  Lemma but_app l : same_but mm (mm ++ l).
  Proof. split; [|split]; [intros b Hb _ _| |]; rewrite blk_app1 by lia; reflexivity. Qed.
  Lemma but_put m p bs : same_but mm m -> (n <= pb p)%nat -> same_but mm (putp m p bs).
  Proof.
    intros (H1 & H2 & H3) Hp. split; [|split].
    - intros b Hb N4 N5. rewrite blk_putp_other by lia. now apply H1.
    - now rewrite blk_putp_other by lia.
    - now rewrite blk_putp_other by lia.
  Qed.
  Lemma but_consts m : same_but mm m -> consts_ok opt_consts m.
  Proof.
    intros (H1 & _) i Hi. assert (L : length opt_consts = 4%nat) by reflexivity. rewrite H1 by lia. now apply Hc.
  Qed.
  Lemma good_global m g h : good n (same_but mm) m -> g = S0 \/ g = S1 -> length h = 8%nat -> good n (same_but mm) (putp m g h).
  Proof.
    intros G Hg Lh.
    assert (Hp : (pb g < n)%nat /\ (pb g = 4%nat \/ pb g = 5%nat)) by (destruct Hg as [-> | ->]; cbn [pb S0 S1]; lia).
    destruct Hp as [Hp Hp'].
    assert (Hr : room m g (length h)).
    { destruct G as [_ (_ & L4 & L5) _ _ _ _ _ _ _ _]. apply room_of_le. destruct Hg as [-> | ->]; cbn [pb po S0 S1]; change (N.to_nat 0) with 0%nat; lia. }
    assert (K : forall j, (n <= j)%nat -> blk (putp m g h) j = blk m j) by (intros; apply blk_putp_other; lia).
    destruct G as [G0 (G1 & G2 & G3) G4 G5 G6 G7 G8 G9 G10 G11].
    constructor; rewrite ?K by lia; auto.
    - now rewrite putp_length.
    - split; [|split].
      + intros b Hb N4 N5. rewrite blk_putp_other by lia. now apply G1.
      + now rewrite blk_putp_len.
      + now rewrite blk_putp_len.
  Qed.

  Lemma but_room m : same_but mm m -> room m S0 8 /\ room m S1 8.
  Proof.
    intros (_ & L4 & L5). split; apply room_of_le; cbn [pb po S0 S1]; change (N.to_nat 0) with 0%nat; lia.
  Qed.

  Ltac dd := apply disj_blocks; cbn [pb S0 S1]; lia.

  Lemma stp_drives : drives X cf Spec.ISAP_A_128A n (same_but mm).
  Proof.
    assert (Al : forall p, aligned cf p 8 = true) by (intros p; unfold aligned; now rewrite Hs).
    assert (Lo : length opt_consts = 4%nat) by reflexivity.
    constructor; [| |intros; apply (ct_len A128A)|split; apply Al].
    - intros m al t G Ha Ht.
      assert (Cm : consts_ok opt_consts m) by (apply but_consts, G).
      assert (V := good_enc_valid cf opt_consts n (same_but mm) m al t G Cm ltac:(lia) (Al _) Ha Ht).
      destruct (but_room m (gd_R _ _ _ G)) as [R0 R1].
      destruct (fam_stp_enc a cf junk m _ _ _ _ _ _ _ _ _ _ Ia Hs Hj V) as (h0 & h1 & L0 & L1 & Hr).
      { split; [exact R0|]. split; [exact R1|]. rewrite !count_up_length. repeat (apply Forall_cons; [split; cbn [fst snd]; dd|]); apply Forall_nil. }
      rewrite !count_up_length in Hr. assert (LY := ct_len A128A al t). change (v_inst A128A) with Spec.ISAP_A_128A in LY.
      set (Y := Spec.isap_encrypt _ _ _ _ _) in *. clearbody Y.
      eexists _, _. split; [exact Hr|]. split; [reflexivity|].
      assert (G1 : good n (same_but mm) (putp m (P (n + 6) 0) (word_le 8 (N.of_nat t + 16)))).
      { apply good_put; [apply but_put|exact G|cbn; auto|]. rewrite word_le_length, (gd_clen _ _ _ G). lia. }
      set (m1 := putp m (P (n + 6) 0) (word_le 8 (N.of_nat t + 16))) in *.
      assert (Rm : room m1 (P (n + 5) 0) (length Y)).
      { apply room_of_le. cbn [pb po]. rewrite (gd_ct _ _ _ G1), LY. change (N.to_nat 0) with 0%nat. lia. }
      assert (G2 : good n (same_but mm) (putp m1 (P (n + 5) 0) Y)).
      { apply good_put; [apply but_put|exact G1|cbn; auto|]. rewrite LY, (gd_ct _ _ _ G1). lia. }
      set (m2 := putp m1 (P (n + 5) 0) Y) in *.
      assert (G3 : good n (same_but mm) (putp m2 S0 h0)) by (apply good_global; auto).
      set (m3 := putp m2 S0 h0) in *.
      assert (G4 : good n (same_but mm) (putp m3 S1 h1)) by (apply good_global; auto).
      assert (Hl : has m1 (P (n + 6) 0) (word_le 8 (N.of_nat t + 16))).
      { apply has_putp_same. apply room_of_le. cbn [pb po]. rewrite word_le_length, (gd_clen _ _ _ G). reflexivity. }
      assert (K : forall q bs, (n <= pb q)%nat -> has m2 q bs -> has (putp m3 S1 h1) q bs).
      { intros q bs Hq Hh. apply has_putp_disj; [rewrite L1; apply (but_room m3), G3| |dd].
        apply has_putp_disj; [rewrite L0; apply (but_room m2), G2|exact Hh|dd]. }
      split; [exact G4|]. split.
      + apply K; [cbn [pb]; lia|]. now apply has_putp_same.
      + apply K; [cbn [pb]; lia|]. apply has_putp_disj; auto. dd.
    - intros m al t G Ha Ht HY.
      assert (Cm : consts_ok opt_consts m) by (apply but_consts, G).
      assert (V := good_dec_valid cf opt_consts n (same_but mm) m al t _ G Cm ltac:(lia) (Al _) Ha Ht (ct_bytes A128A al t) (ct_len A128A al t) HY).
      destruct (but_room m (gd_R _ _ _ G)) as [R0 R1].
      assert (LY := ct_len A128A al t).
      pose proof (ct_split (count_up 16) (count_up 16) (count_up al) (count_up t) (count_up_length 16) (count_up_bytes 16) (count_up_length 16) (count_up_bytes 16)
        (count_up_bytes al) (count_up_bytes t)) as (_ & EC & EI).
      pose proof (accepts_genuine (count_up 16) (count_up 16) (count_up al) (count_up t) (count_up_length 16) (count_up_bytes 16) (count_up_length 16)
        (count_up_bytes 16) (count_up_bytes al) (count_up_bytes t)) as Acc.
      change (v_inst A128A) with Spec.ISAP_A_128A in *.
      set (Y := Spec.isap_encrypt _ _ _ _ _) in *.
      destruct (fam_stp_dec a cf junk m _ _ _ _ _ _ _ _ _ Y true Ia Hs Hj (conj (fun _ => Acc) (fun _ => eq_refl)) V) as (h0 & h1 & L0 & L1 & Hr).
      { split; [exact R0|]. split; [exact R1|]. rewrite !count_up_length, LY. repeat (apply Forall_cons; [split; cbn [fst snd]; dd|]); apply Forall_nil. }
      cbv zeta in Hr. rewrite EC, EI, LY, count_up_length in Hr.
      replace (N.of_nat (t + 16)) with (N.of_nat t + 16) in Hr by lia. replace (N.of_nat t + 16 - 16) with (N.of_nat t) in Hr by lia. clearbody Y.
      eexists _, _. split; [exact Hr|]. split; [reflexivity|].
      assert (G1 : good n (same_but mm) (putp m (P (n + 7) 0) (word_le 8 (N.of_nat t)))).
      { apply good_put; [apply but_put|exact G|cbn; auto|]. rewrite word_le_length, (gd_mlen2 _ _ _ G). lia. }
      set (m1 := putp m (P (n + 7) 0) (word_le 8 (N.of_nat t))) in *.
      assert (G2 : good n (same_but mm) (putp m1 S0 h0)) by (apply good_global; auto).
      set (m2 := putp m1 S0 h0) in *.
      assert (G3 : good n (same_but mm) (putp m2 S1 h1)) by (apply good_global; auto).
      set (m3 := putp m2 S1 h1) in *.
      assert (Rm : room m3 (P (n + 3) 0) (length (count_up t))).
      { apply room_of_le. cbn [pb po]. rewrite (gd_msg2 _ _ _ G3), count_up_length. change (N.to_nat 0) with 0%nat. lia. }
      split; [|split].
      + apply good_put; [apply but_put|exact G3|cbn; auto|]. rewrite count_up_length, (gd_msg2 _ _ _ G3). lia.
      + now apply has_putp_same.
      + apply has_putp_disj; auto; [|dd]. apply has_putp_disj; [rewrite L1; apply (but_room m2), G2| |dd].
        apply has_putp_disj; [rewrite L0; apply (but_room m1), G1| |dd]. apply has_putp_same.
        apply room_of_le. cbn [pb po]. rewrite word_le_length, (gd_mlen2 _ _ _ G). reflexivity.
  Qed.

  Lemma but_firstn m2 : length m2 = (n + 8)%nat -> same_but mm m2 ->
    length (firstn n m2) = n /\ forall b, b <> 4%nat -> b <> 5%nat -> blk (firstn n m2) b = blk mm b.
  Proof.
    intros L (H1 & _).
    assert (E : length (firstn n m2) = n) by (apply firstn_length_le; rewrite L; apply Nat.le_add_r).
    split; [exact E|]. intros b N4 N5. destruct (Nat.lt_ge_cases b n) as [Hb|Hb].
    - unfold blk. rewrite nth_firstn_lt by exact Hb. now apply H1.
    - unfold blk. rewrite !nth_overflow; auto. rewrite <- E in Hb. exact Hb.
  Qed.

  Lemma stp_genkat : exists m',
    runs (genkat_main X cf true) mm (0%Z, Some (file_name, kat_file Spec.ISAP_A_128A), ""%string) m' /\
    length m' = n /\ forall b, b <> 4%nat -> b <> 5%nat -> blk m' b = blk mm b.
  Proof.
    destruct (genkat_ok mm (same_but mm) but_app but_put X cf Spec.ISAP_A_128A stp_drives) as (r & m' & Hr & -> & m2 & L & HS & ->).
    eexists. split; [exact Hr|]. now apply but_firstn.
  Qed.
  Lemma stp_demo : exists m',
    runs (demo_main X cf) mm (0%Z, kat_entry Spec.ISAP_A_128A 1 32 32) m' /\
    length m' = n /\ forall b, b <> 4%nat -> b <> 5%nat -> blk m' b = blk mm b.
  Proof.
    destruct (demo_ok mm (same_but mm) but_app but_put X cf Spec.ISAP_A_128A stp_drives) as (r & m' & Hr & -> & m2 & L & HS & ->).
    eexists. split; [exact Hr|]. now apply but_firstn.
  Qed.
End StpDrive.
Lemma calls_arm_lax cf n : strict cf = false -> kat_calls (arm_call cf) n.
Proof. intros H. apply calls_arm; [intros b _ E|intros i _ E]; congruence. Qed.
