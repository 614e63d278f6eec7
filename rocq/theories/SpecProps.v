(* Framing of the MAC input, separation of the uses of the permutation, keystream states. Proofs only. *)
From Verif Require Import Base Prog SpecPerm Words AsconProof KeccakProof Bij Mem Vocab VocabIv VocabK MemProof RefLib.
From Verif Require Import Spec Sponge RefProof RefAead SpecFacts Api ApiProps.
Open Scope N_scope.

(* ---------- frame ---------- *)

Lemma zeros_inj n n' (u u' : list N) x : x <> 0 -> repeat 0 n ++ x :: u = repeat 0 n' ++ x :: u' -> u = u'.
Proof.
  intros Hx. revert n'. induction n as [|n IH]; intros [|n'] H; cbn [repeat app] in H.
  - now injection H.
  - injection H as E _. congruence.
  - injection H as E _. congruence.
  - injection H as H. now apply (IH n').
Qed.

Lemma rev_repeat {A} (x : A) n : rev (repeat x n) = repeat x n.
Proof.
  induction n as [|n IH]; auto. cbn [repeat rev]. rewrite IH. clear IH.
  induction n as [|n IH]; auto. cbn [repeat app]. now rewrite IH.
Qed.

Lemma pad_inj r x y : pad r x = pad r y -> x = y.
Proof.
  unfold pad. intros H. apply (f_equal (@rev N)) in H. rewrite !rev_app_distr in H. cbn [rev] in H.
  rewrite <- !app_assoc in H. cbn [app] in H. rewrite !rev_repeat in H.
  apply zeros_inj in H; [|discriminate]. rewrite <- (rev_involutive x), <- (rev_involutive y). now rewrite H.
Qed.

Lemma marked_inj {A} (xs xs' ys ys' : list A) x x' :
  map (fun b => (b, false)) xs ++ (x, true) :: map (fun b => (b, false)) ys =
  map (fun b => (b, false)) xs' ++ (x', true) :: map (fun b => (b, false)) ys' -> xs = xs' /\ x = x' /\ ys = ys'.
Proof.
  revert xs'. induction xs as [|a xs IH]; intros [|a' xs'] H; cbn [map app] in H; try discriminate.
  - injection H as -> H. repeat split. revert ys' H. induction ys as [|y ys IH]; intros [|y' ys'] H; try discriminate; auto.
    cbn [map] in H. injection H as -> H. f_equal. auto.
  - injection H as -> H. destruct (IH _ H) as (-> & -> & ->). auto.
Qed.

Lemma pad_nonnil r x : pad r x <> [].
Proof. unfold pad. destruct x; discriminate. Qed.

Lemma chunks_nonnil {A} r (l : list A) : l <> [] -> chunks r l <> [].
Proof. intros H. destruct l; [congruence|]. discriminate. Qed.

Lemma removelast_last {A} (l : list A) d : l <> [] -> removelast l ++ [last l d] = l.
Proof. intros H. symmetry. now apply app_removelast_last. Qed.

Lemma frame_inj r A C A' C' : (0 < r)%nat -> frame r A C = frame r A' C' -> A = A' /\ C = C'.
Proof.
  intros Hr H. unfold frame in H. apply marked_inj in H. destruct H as (H1 & H2 & H3).
  apply chunks_inj in H3; auto. apply pad_inj in H3. split; auto.
  apply (pad_inj r), (chunks_inj r); auto.
  rewrite <- (removelast_last (chunks r (pad r A)) []), <- (removelast_last (chunks r (pad r A')) []); try apply chunks_nonnil, pad_nonnil.
  now rewrite H1, H2.
Qed.

Lemma fold_unmarked I s (l : list (list N)) :
  fold_left (fun s (e : list N * bool) => let s' := i_perm I (i_sH I) (xorp s (fst e)) in if snd e then dom_sep I s' else s')
            (map (fun b => (b, false)) l) s = absorb I s l.
Proof. revert s; induction l as [|b l IH]; intros s; auto. cbn [map fold_left]. rewrite IH. reflexivity. Qed.

Lemma mac_frame_tag I K Nn A C : isap_mac I K Nn A C = frame_tag I K Nn (frame (i_rate I) A C).
Proof.
  assert (E : forall s l, l <> [] -> absorb I s l = i_perm I (i_sH I) (xorp (absorb I s (removelast l)) (last l []))).
  { intros s l Hl. rewrite <- (removelast_last l []) at 1 by auto. unfold absorb. now rewrite fold_left_app. }
  unfold isap_mac, frame_tag, frame. cbv zeta. rewrite fold_left_app, fold_unmarked. cbn [fold_left fst snd].
  rewrite fold_unmarked. rewrite (E _ (chunks (i_rate I) (pad (i_rate I) A))) by apply chunks_nonnil, pad_nonnil.
  reflexivity.
Qed.

(* ---------- keystream ---------- *)

Lemma v_perm_inj v r s t : bytes s -> bytes t -> length s = i_sz (v_inst v) -> length t = i_sz (v_inst v) ->
  i_perm (v_inst v) r s = i_perm (v_inst v) r t -> s = t.
Proof. destruct v; cbn [v_inst i_perm i_sz Spec.ISAP_A_128A Spec.ISAP_A_128 Spec.ISAP_K_128A Spec.ISAP_K_128]; intros; eauto using ascon_p_inj, keccak_p_inj. Qed.

Lemma iter_iter f n s : iter f n s = Nat.iter n f s.
Proof. induction n as [|n IH]; auto. cbn [iter Nat.iter nat_rect]. now rewrite IH. Qed.

Section V.
  Variable v : variant.
  Notation I := (v_inst v).

  Lemma v_rk_wf K Nn : length K = 16%nat -> length Nn = 16%nat -> bytes K -> bytes Nn ->
    bytes (isap_rk I K (iv_KE I) Nn (i_sz I - 16)) /\ length (isap_rk I K (iv_KE I) Nn (i_sz I - 16)) = (i_sz I - 16)%nat.
  Proof.
    intros LK LN BK BN. apply (wf_rk _ _ _ _ _ (v_libok v cf0) (v_macok v)); auto; try lia.
    apply (bytes_iv _ _ _ (v_macok v)). lia.
  Qed.

  Lemma v_iter_wf n s : bytes s -> length s = i_sz I ->
    bytes (Nat.iter n (i_perm I (i_sE I)) s) /\ length (Nat.iter n (i_perm I (i_sE I)) s) = i_sz I.
  Proof.
    intros B L. induction n as [|n [IH1 IH2]]; [split; auto|]. cbn [Nat.iter nat_rect].
    apply (lo_wf _ _ _ _ _ (v_libok v cf0)); auto. apply (mo_leE _ _ _ (v_macok v)).
  Qed.

  Lemma v_iter_inj n s t : bytes s -> bytes t -> length s = i_sz I -> length t = i_sz I ->
    Nat.iter n (i_perm I (i_sE I)) s = Nat.iter n (i_perm I (i_sE I)) t -> s = t.
  Proof.
    intros Bs Bt Ls Lt. induction n as [|n IH]; auto. cbn [Nat.iter nat_rect]. intros H.
    destruct (v_iter_wf n s), (v_iter_wf n t); auto. apply v_perm_inj in H; auto.
  Qed.

  Lemma v_gen_inj K Nn Nn' j : length K = 16%nat -> length Nn = 16%nat -> length Nn' = 16%nat -> bytes K -> bytes Nn -> bytes Nn' ->
    gen_state I K Nn j = gen_state I K Nn' j -> Nn = Nn'.
  Proof.
    intros LK LN LN' BK BN BN' H. unfold gen_state in H.
    destruct (v_rk_wf K Nn) as [B1 L1]; auto. destruct (v_rk_wf K Nn') as [B2 L2]; auto.
    assert (Hz : (24 <= i_sz I <= 50)%nat) by exact (lo_sz _ _ _ _ _ (v_libok v cf0)).
    apply v_iter_inj in H; try (now apply bytes_app); try (rewrite app_length; lia).
    revert H L1 L2. generalize (isap_rk I K (iv_KE I) Nn (i_sz I - 16)) (isap_rk I K (iv_KE I) Nn' (i_sz I - 16)).
    intros a a' H L1 L2. apply (f_equal (skipn (i_sz I - 16))) in H.
    rewrite !skipn_app, (skipn_all2 a), (skipn_all2 a'), L1, L2, Nat.sub_diag, !skipn_O in H by lia. exact H.
  Qed.

  Lemma v_gen_ks K Nn i : v_ks v K Nn i = nth (i mod i_rate I) (gen_state I K Nn (i / i_rate I)) 0.
  Proof. unfold v_ks, ks_byte, gen_state. now rewrite iter_iter. Qed.
End V.

(* ---------- at the level of the API functions ---------- *)

Section Impl.
  Variables (v : variant) (cf : cfg) (cs : list (list N)) (ex : ext) (X : aead).
  Hypothesis HX : impl_ok_if (v_inst v) cf cs ex X.
  Notation I := (v_inst v).

  Lemma p_frame mm c clen m ad npub k K Nn A T :
    ex mm k npub ad (length A) m c (length T) -> enc_valid cf cs mm c clen m ad npub k K Nn A T ->
    exists m1 C, runs (a_enc X c clen m (N.of_nat (length T)) ad (N.of_nat (length A)) npub k) mm 0%Z m1 /\
      length C = length T /\ has m1 c (C ++ frame_tag I K Nn (frame (i_rate I) A C)).
  Proof.
    intros Hl Hv. destruct (p_encrypts v cf cs ex X HX mm c clen m ad npub k K Nn A T Hl Hv) as (m1 & R & H & L).
    destruct Hv as [_ [[BK _] LK] [[BN _] LN] _ _ _ _ _ _ _].
    exists m1, (isap_enc I K Nn T). split; [exact R|]. split; [now apply v_enc_length|].
    rewrite <- mac_frame_tag. exact H.
  Qed.

  Lemma p_frame_dec mm m mlen c ad npub k K Nn A C t :
    ex mm k npub ad (length A) c m (length (C ++ t) - 16)%nat -> length t = 16%nat -> dec_valid cf cs mm m mlen c ad npub k K Nn A (C ++ t) ->
    exists r m1, runs (a_dec X m mlen c (N.of_nat (length (C ++ t))) ad (N.of_nat (length A)) npub k) mm r m1 /\
      (r = 0%Z <-> t = frame_tag I K Nn (frame (i_rate I) A C)).
  Proof.
    intros Hl Ht Hv. destruct (p_decrypts v cf cs ex X HX mm m mlen c ad npub k K Nn A C t Hl Ht Hv) as (r & m1 & R & _ & H & _).
    exists r, m1. split; [exact R|]. now rewrite <- mac_frame_tag.
  Qed.

  Lemma p_keystream mm c clen m ad npub k K Nn A T :
    ex mm k npub ad (length A) m c (length T) -> enc_valid cf cs mm c clen m ad npub k K Nn A T ->
    exists m1, runs (a_enc X c clen m (N.of_nat (length T)) ad (N.of_nat (length A)) npub k) mm 0%Z m1 /\
      forall i, (i < length T)%nat ->
        rd1 m1 (padd c (N.of_nat i)) = Some (N.lxor (nth i T 0) (nth (i mod i_rate I) (gen_state I K Nn (i / i_rate I)) 0)).
  Proof.
    intros Hl Hv. destruct (p_encrypts v cf cs ex X HX mm c clen m ad npub k K Nn A T Hl Hv) as (m1 & R & H & L).
    destruct Hv as [_ [[BK _] LK] [[BN _] LN] _ _ _ _ _ _ _].
    exists m1. split; [exact R|]. intros i Hi. rewrite H by lia. f_equal. unfold isap_encrypt.
    rewrite app_nth1 by (rewrite v_enc_length; auto). rewrite v_enc_nth by auto. now rewrite v_gen_ks.
  Qed.
End Impl.

(* ---------- initial values ---------- *)

Lemma consts_distinct v v' i j : (i < 3)%nat -> (j < 3)%nat ->
  nth i (ref_consts (v_macros v)) [] = nth j (ref_consts (v_macros v')) [] -> v = v' /\ i = j.
Proof.
  intros Hi Hj H.
  destruct v, v'; destruct i as [|[|[|i]]]; try lia; destruct j as [|[|[|j]]]; try lia;
    first [now split | exfalso; discriminate H].
Qed.

Lemma consts_length v i : (i < 3)%nat -> length (nth i (ref_consts (v_macros v)) []) = 8%nat.
Proof. intros Hi. destruct v; destruct i as [|[|[|i]]]; try lia; reflexivity. Qed.

Lemma consts_iv v i : (i < 3)%nat -> nth i (ref_consts (v_macros v)) [] = iv (v_inst v) (N.of_nat (S i)).
Proof. intros Hi. destruct v; destruct i as [|[|[|i]]]; try lia; reflexivity. Qed.

Lemma start_zpad v x i : (i < 3)%nat -> length x = 16%nat ->
  start (v_inst v) x (nth i (ref_consts (v_macros v)) []) = zpad (v_inst v) (x ++ iv (v_inst v) (N.of_nat (S i))).
Proof.
  intros Hi Lx. unfold start, zpad. rewrite consts_iv, app_length, Lx, <- app_assoc by auto. reflexivity.
Qed.

Lemma start_distinct v v' i j x y : (i < 3)%nat -> (j < 3)%nat -> length x = 16%nat -> length y = 16%nat ->
  start (v_inst v) x (nth i (ref_consts (v_macros v)) []) = start (v_inst v') y (nth j (ref_consts (v_macros v')) []) ->
  v = v' /\ i = j /\ x = y.
Proof.
  intros Hi Hj Lx Ly H. unfold start in H.
  assert (E : x = y).
  { apply (f_equal (firstn 16)) in H. rewrite !firstn_app, Lx, Ly, Nat.sub_diag, !firstn_O, !app_nil_r in H.
    now rewrite !firstn_all2 in H by lia. }
  subst y. apply app_inv_head in H. apply (f_equal (firstn 8)) in H.
  rewrite !firstn_app, !consts_length, Nat.sub_diag, !firstn_O, !app_nil_r in H by auto.
  rewrite !firstn_all2 in H by (rewrite consts_length; auto).
  destruct (consts_distinct v v' i j Hi Hj H); auto.
Qed.

Section Uses.
  Variables (v : variant) (cf : cfg).
  Notation I := (v_inst v).
  Notation const i := (nth i (ref_consts (v_macros v)) []).

  Lemma enc_from_ok K Nn T : length K = 16%nat -> isap_enc I K Nn T = enc_from I (start I K (const 2%nat)) Nn T.
  Proof. intros LK. rewrite start_zpad by (auto; lia). reflexivity. Qed.
  Lemma mac_from_ok K Nn A C : length K = 16%nat -> length Nn = 16%nat ->
    isap_mac I K Nn A C = mac_from I (start I Nn (const 0%nat)) (start I K (const 1%nat)) A C.
  Proof. intros LK LN. rewrite !start_zpad by (auto; lia). reflexivity. Qed.

  Lemma starts_used_enc mm c clen m ad npub k K Nn A T :
    ref_locals v cf mm -> ref_enc_valid v cf mm c clen m ad npub k K Nn A T ->
    exists m1 C t, runs (a_enc (ref_impl v cf) c clen m (N.of_nat (length T)) ad (N.of_nat (length A)) npub k) mm 0%Z m1 /\
      length C = length T /\ length t = 16%nat /\ has m1 c (C ++ t) /\
      C = enc_from I (start I K (const 2%nat)) Nn T /\
      t = mac_from I (start I Nn (const 0%nat)) (start I K (const 1%nat)) A C.
  Proof.
    intros Hl Hv. destruct (p_encrypts v cf _ _ _ (ref_if v cf) mm c clen m ad npub k K Nn A T Hl Hv) as (m1 & R & H & L).
    destruct Hv as [_ [[BK _] LK] [[BN _] LN] [[BA _] _] [[BT _] _] _ _ _ _ _].
    exists m1, (isap_enc I K Nn T), (isap_mac I K Nn A (isap_enc I K Nn T)). split; [exact R|].
    split; [now apply v_enc_length|]. split; [apply v_mac; auto; now apply v_enc_bytes|].
    split; [exact H|]. split; [now apply enc_from_ok|now apply mac_from_ok].
  Qed.
  Lemma starts_used_dec mm m mlen c ad npub k K Nn A C t :
    ref_locals v cf mm -> length t = 16%nat -> ref_dec_valid v cf mm m mlen c ad npub k K Nn A (C ++ t) ->
    exists r m1, runs (a_dec (ref_impl v cf) m mlen c (N.of_nat (length (C ++ t))) ad (N.of_nat (length A)) npub k) mm r m1 /\
      (r = 0%Z <-> t = mac_from I (start I Nn (const 0%nat)) (start I K (const 1%nat)) A C) /\
      (r = 0%Z -> has m1 m (enc_from I (start I K (const 2%nat)) Nn C)).
  Proof.
    intros Hl Ht Hv. destruct (p_decrypts v cf _ _ _ (ref_if v cf) mm m mlen c ad npub k K Nn A C t Hl Ht Hv)
      as (r & m1 & R & _ & H1 & H2).
    destruct Hv as [_ [[BK _] LK] [[BN _] LN] _ _ _ _ _ _ _].
    exists r, m1. split; [exact R|]. rewrite <- mac_from_ok, <- enc_from_ok by auto. split; [exact H1|]. intros E. now apply H2.
  Qed.
End Uses.
