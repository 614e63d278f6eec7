(* Concrete cases for PropsRef2.v. *)
From Verif Require Import Base SpecPerm Words Mem Vocab MemProof RefLib Spec RefProof RefAead SpecFacts Api ApiProps ExLib ShortCt Trace RefTrace RefTrace2 PropsRef.
Open Scope N_scope.

Lemma ref_short_case v Y : bytes Y -> (length Y < 16)%nat ->
  exists mm m mlen c ad npub k,
    ref_locals v ex_cf mm /\ consts_ok (ref_consts (v_macros v)) mm /\
    bytes_at mm k ex_K /\ bytes_at mm npub ex_N /\ bytes_at mm ad ex_A /\ bytes_at mm c Y /\
    room mm mlen 8 /\ aligned ex_cf mlen 8 = true /\
    forall t, a_dec (ref_impl v ex_cf) m mlen c (N.of_nat (length Y)) ad (N.of_nat (length ex_A)) npub k (St mm t) = UB.
Proof.
  intros BY LY. set (cs := ref_consts (v_macros v)).
  exists (ex_mem cs ex_K ex_N ex_A Y 0), (ex_ptr cs 4), (ex_ptr cs 5), (ex_ptr cs 3), (ex_ptr cs 2), (ex_ptr cs 1), (ex_ptr cs 0).
  assert (H1 : bytes_at (ex_mem cs ex_K ex_N ex_A Y 0) (ex_ptr cs 1) ex_N) by (split; [apply ex_bytes_N|now apply ex_has]).
  assert (H2 : bytes_at (ex_mem cs ex_K ex_N ex_A Y 0) (ex_ptr cs 2) ex_A) by (split; [apply ex_bytes_A|now apply ex_has]).
  assert (H3 : bytes_at (ex_mem cs ex_K ex_N ex_A Y 0) (ex_ptr cs 3) Y) by (split; [auto|now apply ex_has]).
  assert (H4 : room (ex_mem cs ex_K ex_N ex_A Y 0) (ex_ptr cs 5) 8) by (apply ex_room; cbn [nth]; rewrite uninit_length; lia).
  assert (Lm : length (ex_mem cs ex_K ex_N ex_A Y 0) = (length cs + 6)%nat) by (unfold ex_mem; now rewrite app_length, map_length).
  repeat (split; [first [apply ex_locals|apply ex_consts|assumption|apply ex_aligned|split; [apply ex_bytes_K|now apply ex_has]]|]).
  apply (ref_short_ub v ex_cf _ _ _ _ _ _ _ _ ex_N ex_A Y); auto.
  - apply ex_locals.
  - lia.
  - apply ex_consts.
  - rewrite rd1_cell. unfold cellp. cbn [padd ex_ptr pb po]. rewrite ex_blk. cbn [nth].
    replace (nth_error _ _) with (@None cell); auto. symmetry. apply nth_error_None. rewrite map_length. lia.
  - lia.
  - rewrite Lm. cbn [ex_ptr pb]. lia.
  - destruct v; cbn; lia.
  - apply ex_disj. lia.
  - apply ex_disj. lia.
  - cbn [ex_ptr pb]. lia.
Qed.

Lemma ex_layout cs K Nn A T K' Nn' A' T' n : length K = length K' -> length Nn = length Nn' -> length A = length A' ->
  length T = length T' -> layout (ex_mem cs K Nn A T n) (ex_mem cs K' Nn' A' T' n).
Proof.
  intros H1 H2 H3 H4. unfold layout, ex_mem. etransitivity; [apply map_app|]. symmetry. etransitivity; [apply map_app|].
  cbn [map]. rewrite !map_length, H1, H2, H3, H4. reflexivity.
Qed.

Lemma trace_case v : exists mm mm' c clen m ad npub k,
  ref_locals v ex_cf mm /\
  ref_enc_valid v ex_cf mm c clen m ad npub k ex_K ex_N ex_A ex_T /\
  ref_enc_valid v ex_cf mm' c clen m ad npub k ex_N ex_K (rev ex_A) (rev ex_T) /\ layout mm mm' /\
  ex_K <> ex_N /\ ex_A <> rev ex_A /\ ex_T <> rev ex_T.
Proof.
  set (cs := ref_consts (v_macros v)).
  exists (ex_mem cs ex_K ex_N ex_A ex_T 35), (ex_mem cs ex_N ex_K (rev ex_A) (rev ex_T) 35),
    (ex_ptr cs 4), (ex_ptr cs 5), (ex_ptr cs 3), (ex_ptr cs 2), (ex_ptr cs 1), (ex_ptr cs 0).
  split; [apply ex_locals|]. split; [apply ex_enc|]. split; [|split; [|repeat split; discriminate]].
  - apply (ex_enc_valid ex_cf cs ex_N ex_K (rev ex_A) (rev ex_T)); auto using ex_bytes_K, ex_bytes_N; try reflexivity.
    + apply Forall_rev, ex_bytes_A.
    + apply Forall_rev, ex_bytes_T.
  - apply ex_layout; auto; now rewrite rev_length.
Qed.

Lemma dec_trace_case v : exists mm mm' m mlen c ad npub k Y Y' m1 m1',
  ref_locals v ex_cf mm /\
  ref_dec_valid v ex_cf mm m mlen c ad npub k ex_K ex_N ex_A Y /\
  ref_dec_valid v ex_cf mm' m mlen c ad npub k ex_K ex_N ex_A Y' /\ length Y = length Y' /\ layout mm mm' /\
  runs (a_dec (ref_impl v ex_cf) m mlen c (N.of_nat (length Y)) ad (N.of_nat (length ex_A)) npub k) mm 0%Z m1 /\
  runs (a_dec (ref_impl v ex_cf) m mlen c (N.of_nat (length Y')) ad (N.of_nat (length ex_A)) npub k) mm' (-1)%Z m1'.
Proof.
  set (cs := ref_consts (v_macros v)).
  set (C := isap_enc (v_inst v) ex_K ex_N ex_T). set (T := isap_mac (v_inst v) ex_K ex_N ex_A C).
  assert (E : exists t, bytes t /\ length t = 16%nat /\ t <> T).
  { destruct (list_eq_dec N.eq_dec ex_K T) as [H|H].
    - exists ex_N. split; [apply ex_bytes_N|]. split; [reflexivity|]. rewrite <- H. discriminate.
    - exists ex_K. split; [apply ex_bytes_K|]. split; [reflexivity|exact H]. }
  destruct E as (t & Bt & Lt & Ht).
  destruct (ex_ct v) as [B L]. 
  assert (BC : bytes C) by (apply v_enc_bytes; auto using ex_bytes_K, ex_bytes_N, ex_bytes_T).
  assert (LC : length C = 19%nat) by (unfold C; rewrite v_enc_length; auto using ex_bytes_K, ex_bytes_N, ex_bytes_T).
  destruct (v_mac v ex_K ex_N ex_A C) as [BT LT]; auto using ex_bytes_K, ex_bytes_N, ex_bytes_A. fold T in BT, LT.
  assert (V : ref_dec_valid v ex_cf (ex_mem cs ex_K ex_N ex_A (C ++ T) 19) (ex_ptr cs 4) (ex_ptr cs 5) (ex_ptr cs 3) (ex_ptr cs 2)
    (ex_ptr cs 1) (ex_ptr cs 0) ex_K ex_N ex_A (C ++ T)).
  { apply ex_dec; [now apply bytes_app|rewrite app_length; lia]. }
  assert (V' : ref_dec_valid v ex_cf (ex_mem cs ex_K ex_N ex_A (C ++ t) 19) (ex_ptr cs 4) (ex_ptr cs 5) (ex_ptr cs 3) (ex_ptr cs 2)
    (ex_ptr cs 1) (ex_ptr cs 0) ex_K ex_N ex_A (C ++ t)).
  { apply ex_dec; [now apply bytes_app|rewrite app_length; lia]. }
  destruct (C03_accepts_iff_tag_is_mac v ex_cf _ _ _ _ _ _ _ _ _ _ C T (ex_locals v _) LT V) as (r & m1 & R & Hr & Hr' & _).
  destruct (C03_accepts_iff_tag_is_mac v ex_cf _ _ _ _ _ _ _ _ _ _ C t (ex_locals v _) Lt V') as (r2 & m2 & R2 & Hr2 & Hr2' & _).
  exists (ex_mem cs ex_K ex_N ex_A (C ++ T) 19), (ex_mem cs ex_K ex_N ex_A (C ++ t) 19),
    (ex_ptr cs 4), (ex_ptr cs 5), (ex_ptr cs 3), (ex_ptr cs 2), (ex_ptr cs 1), (ex_ptr cs 0), (C ++ T), (C ++ t), m1, m2.
  assert (LL : length (C ++ T) = length (C ++ t)) by (rewrite !app_length; lia).
  split; [apply ex_locals|]. split; [exact V|]. split; [exact V'|]. split; [exact LL|].
  split; [now apply ex_layout|].
  split.
  - replace 0%Z with r; [exact R|]. now apply Hr'.
  - replace (-1)%Z with r2; [exact R2|]. destruct Hr2 as [Hr2|Hr2]; auto. exfalso. apply Ht, Hr2', Hr2.
Qed.
