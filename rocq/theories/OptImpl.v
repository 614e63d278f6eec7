(* The optimised ISAP-A-128A implementations as API implementations: correctness, agreement with any other correct implementation,
   alignment, conversions. Apart from the definitions of opt_impl and opt_consts (OptProof.v), proofs only. *)
From Verif Require Import Base Prog Poly SpecPerm Words AsconProof Mem Vocab Vocab2 MemProof RefLib Sponge RefProof RefAead SpecFacts.
From Verif Require Import Api ApiProof Bij SpecProps OptPerm OptRep OptPermProof OptIsap OptLanes OptProof.
From Verif Require Spec RefIsap ApiCode.
Open Scope N_scope.

(* crypto_aead.c over isap.c over the asconp.h described by a. junk: the initial contents of the uninitialised local
   state_t of isap_enc. *)
Definition opt_impl (a : asconp) (cf : cfg) (junk : state) : aead :=
  api_aead cf (OptIsap.isap_enc a cf junk) (OptIsap.isap_mac a cf).

Lemma opt_consts_ne i : (i < length opt_consts)%nat -> nth i opt_consts [] <> [].
Proof.
  cbn [opt_consts ref_consts app length]. intros H. destruct i as [|[|[|[|i]]]]; try discriminate. lia.
Qed.

Lemma opt_correct f a rs cf junk : ap_ok f a rs -> In 12%nat rs -> In 1%nat rs -> In 6%nat rs -> length junk = 5%nat ->
  strict cf = false -> impl_ok Spec.ISAP_A_128A cf opt_consts no_cond (opt_impl a cf junk).
Proof.
  intros Ha H12 H1 H6 Hj Hs.
  assert (Hc : forall i, (i < 4)%nat -> al8 cf (P i 0)) by (intros; now apply al8_lax).
  apply (api_impl_ok A128A cf opt_consts (al8 cf) no_cond).
  - exact (opt_enc_ok f a rs cf Ha H12 H1 H6 Hc junk Hj).
  - exact (opt_mac_ok f a rs cf Ha H12 H1 Hc).
  - exact opt_consts_ne.
  - intros p. now apply al8_lax.
Qed.

(* Two correct implementations of the same instance agree. *)
Lemma impls_agree v cf cs loc X cf' cs' loc' X' :
  impl_ok (v_inst v) cf cs loc X -> impl_ok (v_inst v) cf' cs' loc' X' -> agree cf cs loc X cf' cs' loc' X'.
Proof.
  intros H H'. split.
  - intros mm c clen m ad npub k mm' c' clen' m' ad' npub' k' K Nn A T L V L' V'.
    exists 0%Z, (Spec.isap_encrypt (v_inst v) K Nn A T), (word_le 8 (N.of_nat (length T) + 16)).
    split; [apply (e_CT v cf cs mm c clen m ad npub k K Nn A T V)|]. split; [apply word_le_length|].
    split; [now apply (io_enc _ _ _ _ _ H)|now apply (io_enc _ _ _ _ _ H')].
  - intros mm m mlen c ad npub k mm' m' mlen' c' ad' npub' k' K Nn A Y L V L' V'.
    pose proof (io_dec _ _ _ _ _ H mm m mlen c ad npub k K Nn A Y L V) as R.
    pose proof (io_dec _ _ _ _ _ H' mm' m' mlen' c' ad' npub' k' K Nn A Y L' V') as R'.
    destruct (Spec.isap_decrypt (v_inst v) K Nn A Y) as [T|] eqn:E.
    + exists 0%Z, T, (word_le 8 (N.of_nat (length Y) - 16)). cbn [Z.eqb].
      split; [exact (d_length v cf cs mm m mlen c ad npub k K Nn A Y V T E)|]. split; [apply word_le_length|]. split; auto.
    + exists (-1)%Z, [], (word_le 8 (N.of_nat (length Y) - 16)). rewrite !putp_nil.
      split; [reflexivity|]. split; [apply word_le_length|]. split; auto.
Qed.

Lemma opt_agrees f a rs cf junk cf' : ap_ok f a rs -> In 12%nat rs -> In 1%nat rs -> In 6%nat rs -> length junk = 5%nat ->
  strict cf = false ->
  agree cf opt_consts no_cond (opt_impl a cf junk)
        cf' (ref_consts (v_macros A128A)) (v_loc A128A cf') (ref_impl A128A cf').
Proof.
  intros Ha H12 H1 H6 Hj Hs. apply (impls_agree A128A); [now apply (opt_correct f a rs)|apply ref_correct].
Qed.

(* The same on machines that trap misaligned accesses, when the buffers are 8-byte aligned. *)
Lemma opt_aligned_enc f a rs cf junk mm c clen m ad npub k K Nn A T :
  ap_ok f a rs -> In 12%nat rs -> In 1%nat rs -> In 6%nat rs -> length junk = 5%nat ->
  (forall i, (i < 4)%nat -> al8 cf (P i 0)) ->
  enc_valid cf opt_consts mm c clen m ad npub k K Nn A T ->
  al8 cf k -> al8 cf npub -> al8 cf ad -> al8 cf m -> al8 cf c ->
  runs (a_enc (opt_impl a cf junk) c clen m (N.of_nat (length T)) ad (N.of_nat (length A)) npub k) mm 0%Z
       (putp (putp mm clen (word_le 8 (N.of_nat (length T) + 16))) c (Spec.isap_encrypt Spec.ISAP_A_128A K Nn A T)).
Proof.
  intros Ha H12 H1 H6 Hj Hc V P1 P2 P3 P4 P5.
  apply (api_enc_ok A128A cf opt_consts (al8 cf) no_cond); auto using opt_consts_ne.
  - exact (opt_enc_ok f a rs cf Ha H12 H1 H6 Hc junk Hj).
  - exact (opt_mac_ok f a rs cf Ha H12 H1 Hc).
  - intros b _. exact Logic.I.
Qed.

Lemma opt_aligned_dec f a rs cf junk mm m mlen c ad npub k K Nn A Y :
  ap_ok f a rs -> In 12%nat rs -> In 1%nat rs -> In 6%nat rs -> length junk = 5%nat ->
  (forall i, (i < 4)%nat -> al8 cf (P i 0)) ->
  dec_valid cf opt_consts mm m mlen c ad npub k K Nn A Y ->
  al8 cf k -> al8 cf npub -> al8 cf ad -> al8 cf m -> al8 cf c ->
  let m1 := putp mm mlen (word_le 8 (N.of_nat (length Y) - 16)) in
  runs (a_dec (opt_impl a cf junk) m mlen c (N.of_nat (length Y)) ad (N.of_nat (length A)) npub k) mm
       (match Spec.isap_decrypt Spec.ISAP_A_128A K Nn A Y with Some _ => 0%Z | None => (-1)%Z end)
       (match Spec.isap_decrypt Spec.ISAP_A_128A K Nn A Y with Some T => putp m1 m T | None => m1 end).
Proof.
  intros Ha H12 H1 H6 Hj Hc V P1 P2 P3 P4 P5.
  apply (api_dec_ok A128A cf opt_consts (al8 cf) no_cond); auto using opt_consts_ne.
  - exact (opt_enc_ok f a rs cf Ha H12 H1 H6 Hc junk Hj).
  - exact (opt_mac_ok f a rs cf Ha H12 H1 Hc).
  - intros b _. exact Logic.I.
Qed.

(* ---------- conversions ---------- *)

Lemma lanes_bytes ws : Forall w64 ws -> length ws = 5%nat -> lanes (concat (map (word_le 8) ws)) = map (fun v => be_word (word_le 8 v)) ws.
Proof.
  intros _ L. destruct ws as [|a [|b [|c [|d [|e [|x r]]]]]]; try discriminate. cbn [map concat].
  rewrite app_nil_r, lanes_split by (repeat split; apply word_le_length). reflexivity.
Qed.

Lemma swap_w64 v : w64 v -> be_word (word_le 8 v) < 2 ^ 64.
Proof. intros _. apply w64_swap. Qed.

Lemma conv_big_inv v : w64 v -> conv big_prog (conv big_prog v) = v.
Proof. intros H. rewrite (conv_big v H), conv_big by apply w64_swap. now apply swap_swap. Qed.
Lemma conv_bi_inv v : w64 v -> conv from_bi (conv to_bi v) = v /\ conv to_bi (conv from_bi v) = v.
Proof.
  intros H. rewrite (conv_to_bi v H), (conv_from_bi v H). rewrite conv_from_bi, conv_to_bi by apply permw_w64.
  now rewrite (permw_inv _ _ v inv_bi32 H), (permw_inv _ _ v inv_bi32' H).
Qed.
Lemma conv_i8_inv v : w64 v -> conv interleave8 (conv interleave8 v) = v.
Proof. intros H. rewrite (conv_i8 v H), conv_i8 by apply permw_w64. now apply (permw_inv _ _ v inv_bi8). Qed.

(* Into the representation of asconp.h and back is the identity, both ways. *)
Definition conv_ok (a : asconp) : Prop := forall v, w64 v ->
  WORDTOU64 a (U64TOWORD a v) = v /\ U64TOWORD a (WORDTOU64 a v) = v /\ w64 (U64TOWORD a v) /\ w64 (WORDTOU64 a v).

Lemma conv_w64 p f : check_conv f p = true -> forall v, w64 v -> w64 (conv p v).
Proof. intros H v Hv. unfold conv. rewrite (check_conv_sound f p H v Hv). apply permw_w64. Qed.
Lemma big_w64 v : w64 v -> w64 (conv big_prog v).
Proof. intros H. rewrite conv_big by auto. apply w64_swap. Qed.

Lemma conv_plain p n sched : conv_ok (plain_asconp p n sched).
Proof.
  intros v H. cbn [plain_asconp U64TOWORD WORDTOU64]. rewrite !conv_big_inv by auto. auto using big_w64.
Qed.
Lemma conv_bi p n sched : conv_ok (bi_asconp p n sched).
Proof.
  intros v H. cbn [bi_asconp U64TOWORD WORDTOU64].
  assert (B := big_w64 v H).
  assert (F : w64 (conv from_bi v)) by (rewrite conv_from_bi by auto; apply permw_w64).
  rewrite (proj1 (conv_bi_inv (conv big_prog v) B)), (conv_big_inv v H), (conv_big_inv _ F).
  rewrite (proj2 (conv_bi_inv v H)). repeat split.
  - rewrite conv_to_bi by auto. apply permw_w64.
  - now apply big_w64.
Qed.
Lemma conv_bi8 p n sched : conv_ok (bi8_asconp p n sched).
Proof.
  intros v H. cbn [bi8_asconp U64TOWORD WORDTOU64].
  assert (B := big_w64 v H).
  assert (F : w64 (conv interleave8 v)) by (rewrite conv_i8 by auto; apply permw_w64).
  rewrite (conv_i8_inv _ B), (conv_big_inv v H), (conv_big_inv _ F), (conv_i8_inv v H). repeat split.
  - rewrite conv_i8 by auto. apply permw_w64.
  - now apply big_w64.
Qed.

(* Permuting in the representation is permuting the bytes. *)
Definition perm_ok (a : asconp) (rs : list nat) : Prop := forall r ws, In r rs -> Forall w64 ws -> length ws = 5%nat ->
  concat (map (word_le 8) (map (WORDTOU64 a) (PROUNDS a (N.of_nat r) (map (U64TOWORD a) ws)))) =
  ascon_p r (concat (map (word_le 8) ws)).

Lemma stf_conv f a rs ws : ap_ok f a rs -> Forall w64 ws -> length ws = 5%nat ->
  map (U64TOWORD a) ws = stf f (concat (map (word_le 8) ws)).
Proof.
  intros H F L. unfold stf. rewrite lanes_bytes, map_map by auto. apply map_ext_in. intros v Hv.
  rewrite Forall_forall in F. apply (ap_in f a rs H), F, Hv.
Qed.

Lemma wf40_words ws : length ws = 5%nat -> wf40 (concat (map (word_le 8) ws)).
Proof.
  intros L. destruct ws as [|a [|b [|c [|d [|e [|x r]]]]]]; try discriminate. cbn [map concat]. split.
  - rewrite !app_length, !word_le_length. reflexivity.
  - rewrite app_nil_r. repeat (apply bytes_app; split; [apply bytes_word_le|]). apply bytes_word_le.
Qed.

Lemma stf_out f a rs s : ap_ok f a rs -> wf40 s -> concat (map (word_le 8) (map (WORDTOU64 a) (stf f s))) = s.
Proof.
  intros H W. destruct (wf40_split s W) as (b1 & b2 & b3 & b4 & b5 & E & (L1 & L2 & L3 & L4 & L5) & (B1 & B2 & B3 & B4 & B5)).
  assert (O : forall b, length b = 8%nat -> bytes b -> word_le 8 (WORDTOU64 a (permw f (be_word b))) = b).
  { intros b L B. rewrite (ap_out f a rs H) by (apply w64_be; auto). now apply word_le_swap. }
  unfold stf. rewrite E at 1. rewrite lanes_split by auto. cbn [map concat].
  rewrite !O by auto. now rewrite app_nil_r.
Qed.

Lemma ap_perm_ok f a rs : ap_ok f a rs -> perm_ok a rs.
Proof.
  intros H r ws Hr F L. rewrite (stf_conv f a rs) by auto. pose proof (wf40_words ws L) as W.
  rewrite (stf_perm f a rs) by auto. apply (stf_out f a rs); auto. now apply wf40_ascon.
Qed.

(* ---------- crypto_hash ---------- *)

Lemma opt_hash_aligned f a rs cf m out inp X : ap_ok f a rs -> In 12%nat rs ->
  (forall i, (i < 4)%nat -> al8 cf (P i 0)) ->
  consts_ok opt_consts m -> bytes_at m inp X -> N.of_nat (length X) < 2 ^ 64 -> room m out 32 -> al8 cf inp -> al8 cf out ->
  runs (OptIsap.crypto_hash a cf out inp (N.of_nat (length X))) m 0%Z (putp m out (Spec.ascon_hash X)) /\
  length (Spec.ascon_hash X) = 32%nat.
Proof.
  intros Ha H12 Hc C B L R A1 A2. split.
  - exact (opt_hash_ok f a rs cf Ha H12 Hc m out inp X C B L R A1 A2).
  - assert (Ex : exists s, wf40 s /\ Spec.ascon_hash X = Spec.squeeze 4 s).
    { eexists. split; [|reflexivity]. apply (wf_absA (chunks 8 (Spec.pad 8 X))); [apply chunks_Forall; apply bytes_pad, B|].
      apply wf40_ascon. split; [reflexivity|]. apply bytes_app. split; [repeat constructor|apply bytes_repeat; lia]. }
    destruct Ex as (s & W & ->). rewrite squeeze_spec, !app_length, !firstn_length.
    pose proof (wf40_ascon 12 s W) as W1. pose proof (wf40_ascon 12 _ W1) as W2. pose proof (wf40_ascon 12 _ W2) as W3.
    rewrite (proj1 W), (proj1 W1), (proj1 W2), (proj1 W3). reflexivity.
Qed.

(* ---------- running a concrete call ---------- *)

Definition out_of {A} (r : res A) : option (A * mem) := match r with Ok a s => Some (a, smem s) | _ => None end.
Lemma out_runs {A} (f : M A) m a m' : (forall t, out_of (f (St m t)) = Some (a, m')) -> runs f m a m'.
Proof.
  intros H t. specialize (H t). destruct (f (St m t)) as [a1 [m1 t1]| | |]; try discriminate. cbn in H.
  injection H as -> ->. now exists t1.
Qed.

(* ---------- the directories ---------- *)

Definition fam_opt_32 : list asconp := [opt_32; opt_32_compact; opt_32_tiny].
Definition fam_bi_32 : list asconp := [bi_32; bi_32_compact; bi_32_armv6; bi_32_armv6m; bi_32_armv6m_compact].
Definition fam_8 : list asconp := [bi_8; opt_8; opt_8_tiny].
Definition fam_stp : list asconp := [opt_32_stp; bi_32_stp; bi_32_armv6m_stp].
Definition fam_opt : list asconp := opt_64 :: fam_opt_32 ++ fam_bi_32 ++ fam_8.

Lemma fam_ok a : In a fam_opt -> exists f, ap_ok f a rounds_used.
Proof.
  cbn [fam_opt fam_opt_32 fam_bi_32 fam_8 app]. intros H.
  repeat (destruct H as [<-|H]; [eexists; first [exact opt_64_ok|exact opt_32_ok|exact opt_32_compact_ok|exact opt_32_tiny_ok|exact bi_32_ok|
    exact bi_32_compact_ok|exact bi_32_armv6_ok|exact bi_32_armv6m_ok|exact bi_32_armv6m_compact_ok|exact bi_8_ok|exact opt_8_ok|exact opt_8_tiny_ok]|]).
  destruct H.
Qed.
Lemma fam_stp_ok a : In a fam_stp -> exists f, ap_ok f a rounds_stp.
Proof.
  cbn [fam_stp]. intros H.
  repeat (destruct H as [<-|H]; [eexists; first [exact opt_32_stp_ok|exact bi_32_stp_ok|exact bi_32_armv6m_stp_ok]|]).
  destruct H.
Qed.

Lemma fam_correct a cf junk : In a fam_opt -> length junk = 5%nat -> strict cf = false ->
  impl_ok Spec.ISAP_A_128A cf opt_consts no_cond (opt_impl a cf junk).
Proof.
  intros H Hj Hs. destruct (fam_ok a H) as [f Hf]. apply (opt_correct f a rounds_used); auto; cbn; auto.
Qed.
Lemma fam_agrees a cf junk cf' : In a fam_opt -> length junk = 5%nat -> strict cf = false ->
  agree cf opt_consts no_cond (opt_impl a cf junk) cf' (ref_consts (v_macros A128A)) (v_loc A128A cf') (ref_impl A128A cf').
Proof. intros H Hj Hs. apply (impls_agree A128A); [now apply fam_correct|apply ref_correct]. Qed.

Lemma fam_conv a : In a (bi_32_armv7m :: fam_opt ++ fam_stp) -> conv_ok a.
Proof.
  cbn [fam_opt fam_opt_32 fam_bi_32 fam_8 fam_stp app]. intros H.
  destruct H as [<-|H]; [exact (conv_bi _ _ _)|].
  destruct H as [<-|H]; [exact (conv_plain _ _ _)|].
  destruct H as [<-|H]; [exact (conv_plain _ _ _)|].
  destruct H as [<-|H]; [exact (conv_plain _ _ _)|].
  destruct H as [<-|H]; [exact (conv_plain _ _ _)|].
  destruct H as [<-|H]; [exact (conv_bi _ _ _)|].
  destruct H as [<-|H]; [exact (conv_bi _ _ _)|].
  destruct H as [<-|H]; [exact (conv_bi _ _ _)|].
  destruct H as [<-|H]; [exact (conv_bi _ _ _)|].
  destruct H as [<-|H]; [exact (conv_bi _ _ _)|].
  destruct H as [<-|H]; [exact (conv_bi8 _ _ _)|].
  destruct H as [<-|H]; [exact (conv_plain _ _ _)|].
  destruct H as [<-|H]; [exact (conv_plain _ _ _)|].
  destruct H as [<-|H]; [exact (conv_plain _ _ _)|].
  destruct H as [<-|H]; [exact (conv_bi _ _ _)|].
  destruct H as [<-|H]; [exact (conv_bi _ _ _)|].
  destruct H.
Qed.
Lemma fam_perm a r ws : In a (fam_opt ++ fam_stp) -> In r rounds_used -> Forall w64 ws -> length ws = 5%nat ->
  concat (map (word_le 8) (map (WORDTOU64 a) (PROUNDS a (N.of_nat r) (map (U64TOWORD a) ws)))) =
  ascon_p r (concat (map (word_le 8) ws)).
Proof.
  intros H Hr. apply in_app_or in H. destruct H as [H|H].
  - destruct (fam_ok a H) as [f Hf]. exact (ap_perm_ok f a _ Hf r ws Hr).
  - destruct (fam_stp_ok a H) as [f Hf]. apply (ap_perm_ok f a _ Hf r ws). cbn in *. tauto.
Qed.
Lemma fam_stp_perm a r ws : In a fam_stp -> In r rounds_stp -> Forall w64 ws -> length ws = 5%nat ->
  concat (map (word_le 8) (map (WORDTOU64 a) (PROUNDS a (N.of_nat r) (map (U64TOWORD a) ws)))) =
  ascon_p r (concat (map (word_le 8) ws)).
Proof. intros H Hr. destruct (fam_stp_ok a H) as [f Hf]. exact (ap_perm_ok f a _ Hf r ws Hr). Qed.

Lemma fam_hash a cf m out inp X : In a (fam_opt ++ fam_stp) -> (forall i, (i < 4)%nat -> al8 cf (P i 0)) ->
  consts_ok opt_consts m -> bytes_at m inp X -> N.of_nat (length X) < 2 ^ 64 -> room m out 32 -> al8 cf inp -> al8 cf out ->
  runs (OptIsap.crypto_hash a cf out inp (N.of_nat (length X))) m 0%Z (putp m out (Spec.ascon_hash X)) /\
  length (Spec.ascon_hash X) = 32%nat.
Proof.
  intros H. apply in_app_or in H. destruct H as [H|H].
  - destruct (fam_ok a H) as [f Hf]. apply (opt_hash_aligned f a rounds_used); cbn; auto.
  - destruct (fam_stp_ok a H) as [f Hf]. apply (opt_hash_aligned f a rounds_stp); cbn; auto.
Qed.

Lemma fam_aligned_enc a cf junk mm c clen m ad npub k K Nn A T : In a fam_opt -> length junk = 5%nat ->
  (forall i, (i < 4)%nat -> al8 cf (P i 0)) -> enc_valid cf opt_consts mm c clen m ad npub k K Nn A T ->
  al8 cf k -> al8 cf npub -> al8 cf ad -> al8 cf m -> al8 cf c ->
  runs (a_enc (opt_impl a cf junk) c clen m (N.of_nat (length T)) ad (N.of_nat (length A)) npub k) mm 0%Z
       (putp (putp mm clen (word_le 8 (N.of_nat (length T) + 16))) c (Spec.isap_encrypt Spec.ISAP_A_128A K Nn A T)).
Proof.
  intros H Hj. destruct (fam_ok a H) as [f Hf].
  apply (opt_aligned_enc f a rounds_used); cbn; auto.
Qed.
Lemma fam_aligned_dec a cf junk mm m mlen c ad npub k K Nn A Y : In a fam_opt -> length junk = 5%nat ->
  (forall i, (i < 4)%nat -> al8 cf (P i 0)) -> dec_valid cf opt_consts mm m mlen c ad npub k K Nn A Y ->
  al8 cf k -> al8 cf npub -> al8 cf ad -> al8 cf m -> al8 cf c ->
  let m1 := putp mm mlen (word_le 8 (N.of_nat (length Y) - 16)) in
  runs (a_dec (opt_impl a cf junk) m mlen c (N.of_nat (length Y)) ad (N.of_nat (length A)) npub k) mm
       (match Spec.isap_decrypt Spec.ISAP_A_128A K Nn A Y with Some _ => 0%Z | None => (-1)%Z end)
       (match Spec.isap_decrypt Spec.ISAP_A_128A K Nn A Y with Some T => putp m1 m T | None => m1 end).
Proof.
  intros H Hj. destruct (fam_ok a H) as [f Hf].
  apply (opt_aligned_dec f a rounds_used); cbn; auto.
Qed.

Lemma hash_blocks : exists blocks : list N -> list (list N),
  (forall X Y, blocks X = blocks Y -> X = Y) /\
  (forall X, blocks X <> [] /\ Forall (fun b => length b = 8%nat) (blocks X)) /\
  forall a cf m out inp X, In a (fam_opt ++ fam_stp) -> strict cf = false ->
    consts_ok opt_consts m -> bytes_at m inp X -> N.of_nat (length X) < 2 ^ 64 -> room m out 32 ->
    runs (OptIsap.crypto_hash a cf out inp (N.of_nat (length X))) m 0%Z
      (putp m out (Spec.squeeze 4 (fold_left (fun s b => ascon_p 12 (Spec.xorp s b)) (blocks X)
        (ascon_p 12 (Spec.ascon_hash_iv ++ repeat 0 32))))).
Proof.
  exists (fun X => chunks 8 (Spec.pad 8 X)). split; [|split].
  - intros X Y H. apply (pad_inj 8). apply (chunks_inj 8) in H; auto; lia.
  - intros X. rewrite pad_chunks. split; [destruct (chunks 8 (firstn (8 * (length X / 8)) X)); discriminate|].
    apply Forall_app. split.
    + apply (chunks_length_mult 8 (length X / 8)); [lia|]. rewrite firstn_length. lia.
    + repeat constructor. rewrite app_length. cbn [length]. rewrite repeat_length, skipn_length. lia.
  - intros a cf m out inp X H Hs C B L R.
    assert (Al : forall p, al8 cf p) by (intros; now apply al8_lax).
    exact (proj1 (fam_hash a cf m out inp X H (fun i _ => Al _) C B L R (Al _) (Al _))).
Qed.
