(* What isapa128av20/bi_32_armv7m computes, and what the test programs make of it. Proofs only. *)
From Coq Require Import Ascii String.
From Verif Require Import Base Prog Poly SpecPerm Words AsconProof Mem Vocab Vocab2 VocabK MemProof RefLib Sponge RefProof RefAead SpecFacts.
From Verif Require Import Api ApiProof OptPerm OptRep OptPermProof OptIsap OptLanes OptProof OptImpl OptEx OptGen ExLib ExtProof Table TableProof Kat.
From Verif Require Import Genkat VocabKat GenkatProof GenkatImpl GenkatMore VocabV7m V7mPerm.
From Verif Require Spec RefIsap ApiCode.
Open Scope N_scope.
Open Scope cm_scope.
Local Notation length := List.length.

(* ---------- schemes I whose encryption is an involution ---------- *)

Section Scheme.
  Variable I : Spec.inst.
  Hypothesis Hef : encf_ok (Spec.isap_enc I).
  Hypothesis Hmf : macf_ok (Spec.isap_mac I).
  Hypothesis Hinv : forall K Nn T, length K = 16%nat -> length Nn = 16%nat -> bytes K -> bytes Nn ->
    Spec.isap_enc I K Nn (Spec.isap_enc I K Nn T) = T.
  Variables K Nn A : list N.
  Hypotheses (LK : length K = 16%nat) (LN : length Nn = 16%nat) (BK : bytes K) (BN : bytes Nn) (BA : bytes A).

  Lemma s_encrypt T : bytes T -> bytes (Spec.isap_encrypt I K Nn A T) /\ length (Spec.isap_encrypt I K Nn A T) = (length T + 16)%nat.
  Proof.
    intros BT. destruct (Hef K Nn T) as [B1 L1]; auto. destruct (Hmf K Nn A (Spec.isap_enc I K Nn T)) as [B2 L2]; auto.
    unfold Spec.isap_encrypt. split; [apply bytes_app; split; auto|]. rewrite app_length. lia.
  Qed.
  Lemma s_decrypt_encrypt T : bytes T -> Spec.isap_decrypt I K Nn A (Spec.isap_encrypt I K Nn A T) = Some T.
  Proof.
    intros BT. destruct (Hef K Nn T) as [B1 L1]; auto. destruct (Hmf K Nn A (Spec.isap_enc I K Nn T)) as [B2 L2]; auto.
    unfold Spec.isap_encrypt, Spec.isap_decrypt. rewrite app_length, L2.
    replace (length (Spec.isap_enc I K Nn T) + 16 <? 16)%nat with false by lia.
    replace (length (Spec.isap_enc I K Nn T) + 16 - 16)%nat with (length (Spec.isap_enc I K Nn T)) by lia.
    rewrite firstn_app, Nat.sub_diag, firstn_all, firstn_O, app_nil_r, skipn_app, Nat.sub_diag, skipn_all, skipn_O, app_nil_l.
    destruct (list_eq_dec _ _ _) as [_|]; [|congruence]. now rewrite Hinv.
  Qed.
  Lemma s_decrypt_Some Y T : bytes Y -> Spec.isap_decrypt I K Nn A Y = Some T -> bytes T /\ Y = Spec.isap_encrypt I K Nn A T.
  Proof.
    intros BY. unfold Spec.isap_decrypt. destruct (Nat.ltb_spec (length Y) 16); [discriminate|].
    destruct (list_eq_dec _ _ _) as [E|]; [|discriminate]. intros F. injection F as <-.
    split; [apply Hef; auto; now apply bytes_firstn|].
    unfold Spec.isap_encrypt. rewrite Hinv by auto. rewrite <- E. now rewrite firstn_skipn.
  Qed.
End Scheme.

(* ---------- an arbitrary permutation ---------- *)

Section Gen.
  Variables (f : nat -> nat) (a b6 : asconp) (rs : list nat) (cf : cfg) (Q : nat -> list N -> list N) (junk : list N).
  Hypothesis Ha : ap_ok f b6 rs.
  Hypothesis HU : forall v, U64TOWORD a v = U64TOWORD b6 v.
  Hypothesis HW : forall v, WORDTOU64 a v = WORDTOU64 b6 v.
  Hypothesis HTb : forall v, TOBI a v = TOBI b6 v.
  Hypothesis HQ : forall r s, In r rs -> wf40 s -> PROUNDS a (N.of_nat r) (stf f s) = stf f (Q r s).
  Hypothesis Qwf : forall r s, wf40 s -> wf40 (Q r s).
  Hypothesis Hr12 : In 12%nat rs.
  Hypothesis Hr1 : In 1%nat rs.
  Hypothesis Hr6 : In 6%nat rs.
  Hypothesis Hcal : forall i, (i < 4)%nat -> al8 cf (P i 0).
  Hypothesis Hj : length junk = 5%nat.
  Notation I := (IQ Q).

  Lemma gi_invol K Nn T : length K = 16%nat -> length Nn = 16%nat -> bytes K -> bytes Nn -> Spec.isap_enc I K Nn (Spec.isap_enc I K Nn T) = T.
  Proof.
    intros. apply (nth_ext_le _ _ 0); [now rewrite !(g_enc_length f a rs Q HQ Qwf)|].
    intros i Hi. rewrite !(g_enc_length f a rs Q HQ Qwf) in Hi by auto.
    rewrite !(g_enc_nth f a rs Q HQ Qwf); rewrite ?(g_enc_length f a rs Q HQ Qwf); auto.
    now rewrite N.lxor_assoc, N.lxor_nilpotent, N.lxor_0_r.
  Qed.

  Lemma gi_impl : impl_ok_if I cf opt_consts (al8_call cf) (opt_impl a cf junk).
  Proof.
    assert (He := g_enc_ok f a b6 rs cf Q Ha HU HW HTb HQ Qwf Hr12 Hr1 Hr6 Hcal junk Hj).
    assert (Hm := g_mac_ok f a b6 rs cf Q Ha HU HW HTb HQ Qwf Hr12 Hr1 Hcal).
    assert (Fe := g_encf f a rs Q HQ Qwf). assert (Fm := g_macf f a rs Q HQ Qwf).
    constructor.
    - intros mm c clen m ad npub k K Nn A T (P1 & P2 & P3 & P4 & P5) V.
      pose proof (api_enc_ok_e cf opt_consts (al8 cf) (fun p _ => al8 cf p) (fun _ => True) (2 ^ 64) (fun n => n) _ _ _ _ He Hm Fe Fm opt_consts_ne
        ltac:(intros; lia) mm c clen m ad npub k K Nn A T) as R.
      apply R; auto; try (intros b _; exact Logic.I).
      + apply (ev_ad _ _ _ _ _ _ _ _ _ _ _ _ _ V).
      + pose proof (proj2 (ev_msg _ _ _ _ _ _ _ _ _ _ _ _ _ V)). lia.
      + apply (room_has _ _ _ (proj2 (proj1 (ev_ad _ _ _ _ _ _ _ _ _ _ _ _ _ V)))).
    - intros mm m mlen c ad npub k K Nn A Y (P1 & P2 & P3 & P4 & P5) V. cbv zeta.
      pose proof (api_dec_ok_e cf opt_consts (al8 cf) (fun p _ => al8 cf p) (fun _ => True) (2 ^ 64) (fun n => n) _ _ _ _ He Hm Fe Fm opt_consts_ne
        ltac:(intros; lia) mm m mlen c ad npub k K Nn A Y) as R.
      cbv zeta in R. pose proof (dv_ct _ _ _ _ _ _ _ _ _ _ _ _ _ V) as (_ & Ly & Gy).
      unfold Spec.isap_decrypt. replace (length Y <? 16)%nat with false by lia.
      destruct (list_eq_dec _ _ _) as [E|E] in R |- *; (apply R; auto; try (intros b _; exact Logic.I));
        [apply (dv_ad _ _ _ _ _ _ _ _ _ _ _ _ _ V)|lia|apply (room_has _ _ _ (proj2 (proj1 (dv_ad _ _ _ _ _ _ _ _ _ _ _ _ _ V))))|
         apply (dv_ad _ _ _ _ _ _ _ _ _ _ _ _ _ V)|lia|apply (room_has _ _ _ (proj2 (proj1 (dv_ad _ _ _ _ _ _ _ _ _ _ _ _ _ V))))].
  Qed.

  Lemma gi_perm r ws : In r rs -> Forall w64 ws -> length ws = 5%nat ->
    concat (map (word_le 8) (map (WORDTOU64 a) (PROUNDS a (N.of_nat r) (map (U64TOWORD a) ws)))) = Q r (concat (map (word_le 8) ws)).
  Proof.
    intros Hr F L. rewrite (map_ext _ _ HU), (stf_conv f b6 rs) by auto. pose proof (wf40_words ws L) as W.
    rewrite HQ by auto. rewrite (map_ext _ _ HW). apply (stf_out f b6 rs); auto.
  Qed.
End Gen.

(* ---------- bi_32_armv7m ---------- *)

Lemma v7m_enc : encf_ok (Spec.isap_enc ISAP_V7M).
Proof. exact (g_encf f_bi32 bi_32_armv7m rounds_used v7m_p stf_v7m wf40_v7m). Qed.
Lemma v7m_mac : macf_ok (Spec.isap_mac ISAP_V7M).
Proof. exact (g_macf f_bi32 bi_32_armv7m rounds_used v7m_p stf_v7m wf40_v7m). Qed.
Lemma v7m_invol K Nn T : length K = 16%nat -> length Nn = 16%nat -> bytes K -> bytes Nn ->
  Spec.isap_enc ISAP_V7M K Nn (Spec.isap_enc ISAP_V7M K Nn T) = T.
Proof. exact (gi_invol f_bi32 bi_32_armv7m rounds_used v7m_p stf_v7m wf40_v7m K Nn T). Qed.

Lemma used12 : In 12%nat rounds_used. Proof. cbn. auto. Qed.
Lemma used1 : In 1%nat rounds_used. Proof. cbn. auto. Qed.
Lemma used6 : In 6%nat rounds_used. Proof. cbn. auto. Qed.

Lemma v7m_impl cf junk : (forall i, (i < 4)%nat -> al8 cf (P i 0)) -> length junk = 5%nat ->
  impl_ok_if ISAP_V7M cf opt_consts (al8_call cf) (opt_impl bi_32_armv7m cf junk).
Proof.
  intros Hc Hj. exact (gi_impl f_bi32 bi_32_armv7m bi_32_armv6 rounds_used cf v7m_p junk bi_32_armv6_ok v7m_in v7m_out v7m_tobi stf_v7m wf40_v7m
    used12 used1 used6 Hc Hj).
Qed.
Lemma v7m_words_perm r ws : In r rounds_used -> Forall w64 ws -> length ws = 5%nat ->
  concat (map (word_le 8) (map (WORDTOU64 bi_32_armv7m) (PROUNDS bi_32_armv7m (N.of_nat r) (map (U64TOWORD bi_32_armv7m) ws)))) =
  v7m_p r (concat (map (word_le 8) ws)).
Proof. exact (gi_perm f_bi32 bi_32_armv7m bi_32_armv6 rounds_used v7m_p bi_32_armv6_ok v7m_in v7m_out stf_v7m wf40_v7m r ws). Qed.
Lemma v7m_hash_ok cf m out inp X : (forall i, (i < 4)%nat -> al8 cf (P i 0)) -> consts_ok opt_consts m -> bytes_at m inp X ->
  N.of_nat (length X) < 2 ^ 64 -> room m out 32 -> al8 cf inp -> al8 cf out ->
  runs (OptIsap.crypto_hash bi_32_armv7m cf out inp (N.of_nat (length X))) m 0%Z (putp m out (v7m_hash X)) /\ length (v7m_hash X) = 32%nat.
Proof.
  intros Hc H1 H2 H3 H4 H5 H6. split.
  - exact (g_hash_ok f_bi32 bi_32_armv7m bi_32_armv6 rounds_used cf v7m_p bi_32_armv6_ok v7m_in v7m_out v7m_tobi stf_v7m wf40_v7m used12 Hc
      m out inp X H1 H2 H3 H4 H5 H6).
  - exact (g_hash_length f_bi32 bi_32_armv7m rounds_used v7m_p stf_v7m wf40_v7m X (proj1 H2)).
Qed.

Lemma v7m_len a t : length (Spec.isap_encrypt ISAP_V7M (count_up 16) (count_up 16) (count_up a) (count_up t)) = (t + 16)%nat.
Proof.
  rewrite (proj2 (s_encrypt ISAP_V7M v7m_enc v7m_mac v7m_invol (count_up 16) (count_up 16) (count_up a) (count_up_length 16) (count_up_length 16)
    (count_up_bytes 16) (count_up_bytes 16) (count_up_bytes a) (count_up t) (count_up_bytes t))). now rewrite count_up_length.
Qed.
Lemma v7m_bytes a t : bytes (Spec.isap_encrypt ISAP_V7M (count_up 16) (count_up 16) (count_up a) (count_up t)).
Proof.
  exact (proj1 (s_encrypt ISAP_V7M v7m_enc v7m_mac v7m_invol (count_up 16) (count_up 16) (count_up a) (count_up_length 16) (count_up_length 16)
    (count_up_bytes 16) (count_up_bytes 16) (count_up_bytes a) (count_up t) (count_up_bytes t))).
Qed.
Lemma v7m_dec a t : Spec.isap_decrypt ISAP_V7M (count_up 16) (count_up 16) (count_up a)
  (Spec.isap_encrypt ISAP_V7M (count_up 16) (count_up 16) (count_up a) (count_up t)) = Some (count_up t).
Proof.
  exact (s_decrypt_encrypt ISAP_V7M v7m_enc v7m_mac v7m_invol (count_up 16) (count_up 16) (count_up a) (count_up_length 16) (count_up_length 16)
    (count_up_bytes 16) (count_up_bytes 16) (count_up_bytes a) (count_up t) (count_up_bytes t)).
Qed.

Lemma v7m_genkat cf junk mm : (forall i, al8 cf (P i 0)) -> length junk = 5%nat -> consts_ok opt_consts mm -> (4 <= length mm)%nat ->
  runs (genkat_main (opt_impl bi_32_armv7m cf junk) cf true) mm (0%Z, Some (file_name, kat_file ISAP_V7M), ""%string) mm /\
  runs (demo_main (opt_impl bi_32_armv7m cf junk) cf) mm (0%Z, kat_entry ISAP_V7M 1 32 32) mm.
Proof.
  intros Hal Hj Hc Hn.
  assert (Al : forall i, aligned cf (P i 0) 8 = true).
  { intros i. pose proof (al8_at cf (P i 0) 0 (Hal i) eq_refl) as H. now rewrite padd_0 in H. }
  assert (HI := v7m_impl cf junk (fun i _ => Hal i) Hj).
  assert (Hex : kat_calls (al8_call cf) (length mm)) by (apply calls_al8; auto).
  split.
  - exact (exact_genkat ISAP_V7M cf opt_consts _ _ mm HI v7m_len v7m_bytes v7m_dec Hc Hn (Al _) (Al _) Hex).
  - exact (exact_demo ISAP_V7M cf opt_consts _ _ mm HI v7m_len v7m_bytes v7m_dec Hc Hn (Al _) (Al _) Hex).
Qed.

Lemma v7m_genkat_hash cf mm : (forall i, al8 cf (P i 0)) -> consts_ok opt_consts mm -> (4 <= length mm)%nat ->
  runs (genkat_hash_main (OptIsap.crypto_hash bi_32_armv7m cf) true) mm (0%Z, Some (hash_file_name, hash_file v7m_hash), ""%string) mm.
Proof.
  intros Hal Hc Hn.
  assert (Lc : length opt_consts = 4%nat) by reflexivity.
  apply (hash_genkat _ v7m_hash).
  intros m t L S B D Ht. rewrite <- (count_up_length t) at 1.
  apply v7m_hash_ok; auto.
  - apply (same_consts _ mm); auto.
  - split; [apply count_up_bytes|]. rewrite <- (count_up_firstn t 1024) by exact Ht. apply has_blk_pre, B.
  - rewrite count_up_length. assert (2 ^ 64 = 18446744073709551616) by reflexivity. lia.
  - apply room_of_le. cbn [pb po]. rewrite D. reflexivity.
Qed.

(* ---------- the first entries of the two files ---------- *)

Lemma kat_spec_I I cf cs ex X K Nn A T CT : impl_ok_if I cf cs ex X -> length (Spec.isap_encrypt I K Nn A T) = (length T + 16)%nat ->
  aligned cf (ex_ptr cs 5) 8 = true ->
  ex (ex_mem cs K Nn A T (length T + 16)) (ex_ptr cs 0) (ex_ptr cs 1) (ex_ptr cs 2) (length A) (ex_ptr cs 3) (ex_ptr cs 4) (length T) ->
  bytes K -> length K = 16%nat -> bytes Nn -> length Nn = 16%nat -> bytes A -> bytes T ->
  N.of_nat (length A) < 2 ^ 64 -> N.of_nat (length T) + 16 < 2 ^ 64 ->
  kat_out X cs K Nn A T = Some (map Some CT) -> Spec.isap_encrypt I K Nn A T = CT.
Proof.
  intros HX LY Al He BK LK BN LN BA BT GA GT Hk.
  assert (V : enc_valid cf cs (ex_mem cs K Nn A T (length T + 16)) (ex_ptr cs 4) (ex_ptr cs 5) (ex_ptr cs 3) (ex_ptr cs 2) (ex_ptr cs 1) (ex_ptr cs 0) K Nn A T)
    by now apply ex_enc_valid.
  destruct (ioi_enc _ _ _ _ _ HX _ _ _ _ _ _ _ _ _ _ _ He V []) as (t & E).
  unfold kat_out in Hk. rewrite E in Hk. cbn [smem] in Hk. clear E. injection Hk as Hk. apply some_inj.
  rewrite <- Hk. clear Hk. set (Y := Spec.isap_encrypt I K Nn A T) in *. clearbody Y.
  set (m1 := putp _ (ex_ptr cs 5) _).
  assert (B : length (blk m1 (pb (ex_ptr cs 4))) = (length T + 16)%nat).
  { unfold m1. rewrite blk_putp_other by (cbn [ex_ptr pb]; lia). unfold ex_ptr. cbn [pb]. rewrite ex_blk. cbn [nth]. apply uninit_length. }
  unfold putp, put. cbn [ex_ptr pb po] in *. change (N.to_nat 0) with 0%nat.
  rewrite blk_upd, Nat.eqb_refl. replace (_ <? _)%nat with true.
  - rewrite splice_all; auto. now rewrite map_length, LY.
  - symmetry. apply Nat.ltb_lt, blk_nonempty. intros E. rewrite E in B. cbn [length] in B. lia.
Qed.

Definition ct_of (o : option (list cell)) : list N :=
  match o with Some l => map (fun c => match c with Some v => v | None => 0 end) l | None => [] end.
Definition first_v7m : list N := Eval vm_compute in
  ct_of (kat_out (opt_impl bi_32_armv7m lax_cf (repeat 0 5)) opt_consts (count_up 16) (count_up 16) [] []).
Definition first_good : list N := Eval vm_compute in
  ct_of (kat_out (opt_impl opt_64 lax_cf (repeat 0 5)) opt_consts (count_up 16) (count_up 16) [] []).

Lemma first_v7m_ok : Spec.isap_encrypt ISAP_V7M (count_up 16) (count_up 16) (count_up 0) (count_up 0) = first_v7m.
Proof.
  apply (kat_spec_I ISAP_V7M lax_cf opt_consts (al8_call lax_cf) (opt_impl bi_32_armv7m lax_cf (repeat 0 5))).
  - apply v7m_impl; [intros; now apply al8_lax|reflexivity].
  - apply (v7m_len 0 0).
  - reflexivity.
  - repeat split; now apply al8_lax.
  - apply count_up_bytes.
  - reflexivity.
  - apply count_up_bytes.
  - reflexivity.
  - constructor.
  - constructor.
  - reflexivity.
  - reflexivity.
  - vm_compute. reflexivity.
Qed.
Lemma first_good_ok : Spec.isap_encrypt Spec.ISAP_A_128A (count_up 16) (count_up 16) (count_up 0) (count_up 0) = first_good.
Proof.
  apply (kat_spec A128A lax_cf opt_consts any_call (opt_impl opt_64 lax_cf (repeat 0 5))).
  - exact (io_opt opt_64 (repeat 0 5) lax_cf (or_introl eq_refl) eq_refl eq_refl).
  - reflexivity.
  - exact Logic.I.
  - apply count_up_bytes.
  - reflexivity.
  - apply count_up_bytes.
  - reflexivity.
  - constructor.
  - constructor.
  - reflexivity.
  - reflexivity.
  - vm_compute. reflexivity.
Qed.

Lemma kat_file_first I : kat_file I = (kat_entry I 1 0 0 ++ String.concat "" (map (fun i => kat_entry I (S i) (i / 33) (i mod 33)) (seq 1 1088)))%string.
Proof. unfold kat_file. change (33 * 33)%nat with (S 1088). cbn [seq map]. rewrite sconcat_cons. reflexivity. Qed.
Lemma files_differ : kat_file ISAP_V7M <> kat_file Spec.ISAP_A_128A.
Proof.
  rewrite !kat_file_first. generalize (String.concat "" (map (fun i => kat_entry ISAP_V7M (S i) (i / 33) (i mod 33)) (seq 1 1088))).
  generalize (String.concat "" (map (fun i => kat_entry Spec.ISAP_A_128A (S i) (i / 33) (i mod 33)) (seq 1 1088))).
  intros s1 s2 E. unfold kat_entry in E. rewrite first_v7m_ok, first_good_ok in E. vm_compute in E. discriminate E.
Qed.

(* ---------- the digest of the empty string ---------- *)

Definition digest_v7m : list N := Eval vm_compute in
  match OptIsap.crypto_hash bi_32_armv7m lax_cf (P 4 0) (P 4 0) 0 (St OptEx.hash_mem []) with
  | Ok _ s => map (fun c => match c with Some v => v | None => 0 end) (nth 4 (smem s) [])
  | _ => [] end.
Lemma run_hash_v7m' : runs (OptIsap.crypto_hash bi_32_armv7m lax_cf (P 4 0) (P 4 0) 0) OptEx.hash_mem 0%Z (map (map Some) opt_consts ++ [map Some digest_v7m]).
Proof. apply out_runs. intros t. vm_compute. reflexivity. Qed.
Lemma v7m_hash_nil : v7m_hash [] = digest_v7m.
Proof.
  assert (Al : forall p, al8 lax_cf p) by (intros; now apply al8_lax).
  destruct (v7m_hash_ok lax_cf OptEx.hash_mem (P 4 0) (P 4 0) [] (fun i _ => Al (P i 0)) OptEx.hash_consts OptEx.hash_empty eq_refl OptEx.hash_room (Al _) (Al _)) as [R L].
  change (N.of_nat (length (@nil N))) with 0 in R. destruct (runs_det _ _ _ _ _ _ run_hash_v7m' R) as [_ Em].
  assert (H : has (putp OptEx.hash_mem (P 4 0) (v7m_hash [])) (P 4 0) (v7m_hash [])).
  { apply has_putp_same. rewrite L. apply OptEx.hash_room. }
  rewrite <- Em in H. clear Em R. apply (nth_ext_le _ _ 0); [rewrite L; reflexivity|]. intros i Hi. specialize (H i Hi).
  rewrite L in Hi. revert H. generalize (nth i (v7m_hash []) 0). clear - Hi. intros x Hx.
  do 32 (destruct i as [|i]; [vm_compute in Hx; injection Hx as <-; reflexivity|]). lia.
Qed.
Lemma hash_file_first H : hash_file H = (hash_entry H 0 ++ String.concat "" (map (hash_entry H) (seq 1 1024)))%string.
Proof. unfold hash_file. change 1025%nat with (S 1024). cbn [seq map]. rewrite sconcat_cons. reflexivity. Qed.
Lemma hash_files_differ : hash_file v7m_hash <> hash_file Spec.ascon_hash.
Proof.
  rewrite !hash_file_first. generalize (String.concat "" (map (hash_entry v7m_hash) (seq 1 1024))).
  generalize (String.concat "" (map (hash_entry Spec.ascon_hash) (seq 1 1024))).
  intros s1 s2 E. unfold hash_entry in E. change (count_up 0) with (@nil N) in E. rewrite v7m_hash_nil, good_hash in E. vm_compute in E. discriminate E.
Qed.

(* ---------- the statements of PropsV7m.v ---------- *)

Section Calls.
  Variables (cf : cfg) (junk : list N).
  Hypothesis Hc : forall i, (i < 4)%nat -> al8 cf (P i 0).
  Hypothesis Hj : length junk = 5%nat.
  Notation X := (opt_impl bi_32_armv7m cf junk).

  Lemma v7m_round_trip mm c clen m ad npub k mm' m' mlen' c' ad' npub' k' K Nn A T Y :
    al8_call cf mm k npub ad (length A) m c (length T) -> enc_valid cf opt_consts mm c clen m ad npub k K Nn A T ->
    al8_call cf mm' k' npub' ad' (length A) c' m' (length T) -> dec_valid cf opt_consts mm' m' mlen' c' ad' npub' k' K Nn A Y ->
    (exists m1, runs (a_enc X c clen m (N.of_nat (length T)) ad (N.of_nat (length A)) npub k) mm 0%Z m1 /\ has m1 c Y /\ length Y = (length T + 16)%nat) ->
    runs (a_dec X m' mlen' c' (N.of_nat (length Y)) ad' (N.of_nat (length A)) npub' k') mm' 0%Z
         (putp (putp mm' mlen' (word_le 8 (N.of_nat (length T)))) m' T).
  Proof.
    intros C V C' V' (m1 & R & H & L).
    pose proof (proj1 (ev_key _ _ _ _ _ _ _ _ _ _ _ _ _ V)) as [BK _]. pose proof (proj2 (ev_key _ _ _ _ _ _ _ _ _ _ _ _ _ V)) as LK.
    pose proof (proj1 (ev_nonce _ _ _ _ _ _ _ _ _ _ _ _ _ V)) as [BN _]. pose proof (proj2 (ev_nonce _ _ _ _ _ _ _ _ _ _ _ _ _ V)) as LN.
    pose proof (proj1 (ev_ad _ _ _ _ _ _ _ _ _ _ _ _ _ V)) as [BA _]. pose proof (proj1 (ev_msg _ _ _ _ _ _ _ _ _ _ _ _ _ V)) as [BT _].
    pose proof (s_encrypt ISAP_V7M v7m_enc v7m_mac v7m_invol K Nn A LK LN BK BN BA T BT) as [BY LY].
    pose proof (s_decrypt_encrypt ISAP_V7M v7m_enc v7m_mac v7m_invol K Nn A LK LN BK BN BA T BT) as ED.
    pose proof (ioi_enc _ _ _ _ _ (v7m_impl cf junk Hc Hj) mm c clen m ad npub k K Nn A T C V) as R1.
    set (Z := Spec.isap_encrypt ISAP_V7M K Nn A T) in *.
    destruct (runs_det _ _ _ _ _ _ R R1) as [_ Em].
    assert (HZ : has m1 c Z).
    { rewrite Em. apply has_putp_same. rewrite LY. apply room_putp; [rewrite word_le_length|]; apply V. }
    assert (E : Y = Z).
    { apply (nth_ext_le _ _ 0); [lia|]. intros i Hi. specialize (H i Hi). specialize (HZ i ltac:(lia)). congruence. }
    subst Y. clearbody Z.
    assert (C2 : al8_call cf mm' k' npub' ad' (length A) c' m' (length Z - 16)%nat).
    { exact C'. }
    pose proof (ioi_dec _ _ _ _ _ (v7m_impl cf junk Hc Hj) mm' m' mlen' c' ad' npub' k' K Nn A Z C2 V') as R2. cbv zeta in R2.
    rewrite ED, LY in R2. rewrite LY. replace (N.of_nat (length T + 16) - 16) with (N.of_nat (length T)) in R2 by lia. exact R2.
  Qed.

  Lemma v7m_accepts mm m mlen c ad npub k K Nn A Y :
    al8_call cf mm k npub ad (length A) c m (length Y - 16)%nat -> dec_valid cf opt_consts mm m mlen c ad npub k K Nn A Y ->
    exists r m1, runs (a_dec X m mlen c (N.of_nat (length Y)) ad (N.of_nat (length A)) npub k) mm r m1 /\
      (r = 0%Z <-> exists T, bytes T /\ Y = Spec.isap_encrypt ISAP_V7M K Nn A T).
  Proof.
    intros C V.
    pose proof (proj1 (dv_key _ _ _ _ _ _ _ _ _ _ _ _ _ V)) as [BK _]. pose proof (proj2 (dv_key _ _ _ _ _ _ _ _ _ _ _ _ _ V)) as LK.
    pose proof (proj1 (dv_nonce _ _ _ _ _ _ _ _ _ _ _ _ _ V)) as [BN _]. pose proof (proj2 (dv_nonce _ _ _ _ _ _ _ _ _ _ _ _ _ V)) as LN.
    pose proof (proj1 (dv_ad _ _ _ _ _ _ _ _ _ _ _ _ _ V)) as [BA _]. pose proof (proj1 (dv_ct _ _ _ _ _ _ _ _ _ _ _ _ _ V)) as [BY _].
    pose proof (ioi_dec _ _ _ _ _ (v7m_impl cf junk Hc Hj) mm m mlen c ad npub k K Nn A Y C V) as R. cbv zeta in R.
    eexists _, _. split; [exact R|]. clear R. split.
    - destruct (Spec.isap_decrypt ISAP_V7M K Nn A Y) as [T|] eqn:E; [|discriminate]. intros _. exists T.
      exact (s_decrypt_Some ISAP_V7M v7m_enc v7m_invol K Nn A LK LN BK BN Y T BY E).
    - intros (T & BT & ->).
      now rewrite (s_decrypt_encrypt ISAP_V7M v7m_enc v7m_mac v7m_invol K Nn A LK LN BK BN BA T BT).
  Qed.
End Calls.
