(* isapk128av20/opt_64 and isapk128v20/opt_64 as API implementations. Apart from the definition of the implementations, proofs only. *)
From Verif Require Import Base Prog Poly SpecPerm Words KeccakProof RefPerm Mem Vocab Vocab2 VocabK MemProof RefLib Sponge RefProof RefAead SpecFacts.
From Verif Require Import Api ApiProof ExLib ShortCt OptEx OptProof A128Proof ExtProof KRound K64Perm K64PermProof KIsap KIsapProof.
From Verif Require Spec RefIsap ApiCode.
Import Spec(xorp, i_sz, i_rate, i_sH, i_sB, i_sE, i_sK, i_perm).
Open Scope N_scope.
Open Scope cm_scope.

(* crypto_aead.c over isap.c with the macros of K-128 or K-128A; scr: the contents of the uninitialised variables of the permutation. *)
Definition k_rounds (v : variant) : krounds := match v with K128 => rounds_128 | _ => rounds_128a end.
Definition impl_k64 (v : variant) (scr : st -> list N) (cf : cfg) : aead :=
  api_aead cf (isap_enc (k64_ops scr) (k_rounds v) cf) (isap_mac (k64_ops scr) (k_rounds v) cf).
Definition scr_ok (scr : st -> list N) : Prop := forall z, length (scr z) = 61%nat /\ Forall (fun w => w < 2 ^ 16) (scr z).
Definition kv (v : variant) : Prop := v = K128 \/ v = K128A.

Definition kp (r : N) (s : list N) : list N := keccak_p (N.to_nat r) s.

Lemma aligned_lax cf p n : strict cf = false -> aligned cf p n = true.
Proof. intros H. unfold aligned. now rewrite H. Qed.

Lemma loadn_at cf m p bs i n : strict cf = false -> has m p bs -> (i + n <= length bs)%nat -> (0 < n)%nat ->
  runs (loadn cf n (padd p (N.of_nat i))) m (firstn n (skipn i bs)) m.
Proof.
  intros Hs H Hl Hn. assert (L : length (firstn n (skipn i bs)) = n) by (rewrite firstn_length, skipn_length; lia).
  rewrite <- L at 1. apply runs_loadn.
  - apply has_firstn. now apply has_skipn.
  - now apply aligned_lax.
Qed.
Lemma split18 (bs : list N) : length bs = 18%nat -> firstn 8 (skipn 0 bs) ++ firstn 8 (skipn 8 bs) ++ firstn 2 (skipn 16 bs) = bs.
Proof.
  intros L. do 18 (destruct bs as [|? bs]; [discriminate|]). destruct bs; [reflexivity|discriminate].
Qed.

Lemma r_lo16 cf m p bs : strict cf = false -> has m p bs -> length bs = 2%nat -> inside m (padd p 7) = true -> runs (load_lo16 cf p) m bs m.
Proof.
  intros Hs H L Hi. unfold load_lo16. rewrite aligned_lax by auto. eapply runs_bind; [apply runs_emit|].
  intros t. cbn [smem]. rewrite Hi. rewrite <- L. now apply runs_loads_.
Qed.
Lemma ub_lo16 cf m p : inside m (padd p 7) = false -> ubs (load_lo16 cf p) m.
Proof.
  intros Hi. unfold load_lo16. destruct (aligned cf p 8); [|intros t; reflexivity].
  eapply ubs_bind2; [apply runs_emit|]. intros t. cbn [smem]. now rewrite Hi.
Qed.

Lemma lanes_wfS (s : list N) : length s = 50%nat -> bytes s -> of_lanes (map le_word (chunks 2 s)) = s.
Proof. intros L B. apply of_lanes_bytes; auto. now rewrite L. Qed.

Lemma r_k64_store cf m s i n p : strict cf = false -> length s = 50%nat -> bytes s -> (i + n <= 25)%nat -> room m (padd p (2 * N.of_nat i)) (2 * n) ->
  runs (k64_store cf s i n p) m tt (putp m (padd p (2 * N.of_nat i)) (firstn (2 * n) (skipn (2 * i) s))).
Proof.
  intros Hs L B Hi R. unfold k64_store. rewrite lanes_skipn, lanes_firstn.
  assert (L1 : length (firstn (2 * n) (skipn (2 * i) s)) = (2 * n)%nat) by (rewrite firstn_length, skipn_length; lia).
  eapply runs_eq; [apply lax_store_lanes; auto|reflexivity|].
  - rewrite (lanes_length n); auto.
  - f_equal. apply of_lanes_bytes; [now apply bytes_firstn, bytes_skipn|]. rewrite L1. apply Nat.even_spec. now exists n.
Qed.

Lemma k64_ops_ok scr cf : scr_ok scr -> strict cf = false -> kops_ok 50 24 k64_r cf (k64_ops scr) kp.
Proof.
  intros Hscr Hs. constructor.
  - lia.
  - lia.
  - intros m bs B L. exists bs. cbn [k64_ops k_init]. rewrite lanes_wfS by auto. split; [apply runs_ret|]. split; [split; auto|].
    apply firstn_all2. lia.
  - intros r s m Hr [L B] t. cbn [k64_ops k_perm]. destruct (Hscr (St m t)) as [H1 H2]. rewrite k64_perm_ok by auto. now exists t.
  - intros r s Hr [L B].
    destruct (keccak_p_bytes (N.to_nat r) s) as [B' L']; auto.
    { destruct Hr as [->|[->|[->|[->| ->]]]]; cbn; lia. }
    split; [split; auto|]. unfold kp. rewrite (firstn_all2 s), firstn_all2; auto; lia.
  - intros m p bs B H L Hr. cbn [k64_ops k_load_src]. unfold k64_load_src.
    eapply runs_bind; [apply (loadn_at cf m p bs 0 8); auto; lia|].
    eapply runs_bind; [apply (loadn_at cf m p bs 8 8); auto; lia|].
    eapply runs_bind; [apply (r_lo16 cf m (padd p 16) (firstn 2 (skipn 16 bs))); auto|].
    + apply has_firstn. now apply (has_skipn m p bs 16).
    + rewrite firstn_length, skipn_length. lia.
    + rewrite padd_padd. apply (Hr 23%nat). lia.
    + eapply runs_eq; [apply runs_ret| |reflexivity]. now apply split18.
  - intros m p bs B H L. cbn [k64_ops k_load_m]. unfold k64_load_m.
    eapply runs_bind; [apply (loadn_at cf m p bs 0 8); auto; lia|].
    eapply runs_bind; [apply (loadn_at cf m p bs 8 8); auto; lia|].
    eapply runs_bind; [apply (loadn_at cf m p bs 16 2); auto; lia|].
    eapply runs_eq; [apply runs_ret| |reflexivity]. now apply split18.
  - intros s x Hx. cbn [k64_ops k_bit]. rewrite xor_at_0. replace (word_le 2 x) with ([x] ++ repeat 0 1); [apply xorp_zeros|].
    change ([x] ++ repeat 0 1) with [x; 0]. rewrite <- (word_le_le_word [x; 0] 2) by (auto; repeat constructor; auto; lia). f_equal.
  - intros s. cbn [k64_ops k_dom]. now rewrite xor_at_off.
  - intros m s out outlen n [L B] En R. cbn [k64_ops k_out]. unfold k64_out.
    assert (Rs : forall j, (j <= n)%nat -> room m out j) by (intros j Hj i Hi; apply R; lia).
    assert (H16 : (16 <= n)%nat) by (rewrite En; destruct (outlen =? 34); lia).
    eapply runs_bind.
    { apply (r_k64_store cf m s 0 8 out); auto; [lia|]. change (2 * N.of_nat 0) with 0. rewrite padd_0. apply Rs. lia. }
    change (2 * N.of_nat 0) with 0. rewrite padd_0. change (2 * 0)%nat with 0%nat. cbn [skipn].
    change (50 - RefIsap.CRYPTO_NPUBBYTES) with 34.
    apply runs_if_skip; intros E; rewrite E in En; subst n.
    + eapply runs_eq; [apply (r_k64_store cf _ s 8 9 out); auto; [lia|]|reflexivity|].
      * apply room_putp; [|apply (room_sub m out 34 16); auto; lia]. intros i Hi. rewrite firstn_length, L in Hi. apply R. lia.
      * change (2 * N.of_nat 8) with (N.of_nat 16). change (2 * 8)%nat with 16%nat.
        assert (E16 : length (firstn 16 s) = 16%nat) by (rewrite firstn_length, L; reflexivity).
        replace (N.of_nat 16) with (N.of_nat (length (firstn 16 s))) by now rewrite E16. rewrite putp_app_bytes.
        -- f_equal. rewrite <- (firstn_skipn 16 (firstn 34 s)). rewrite firstn_firstn. change (Nat.min 16 34) with 16%nat.
           f_equal. change 34%nat with (16 + 18)%nat. now rewrite firstn_skipn_comm.
        -- rewrite app_length, !firstn_length, skipn_length, L. exact R.
    + reflexivity.
  - intros m s p [L B] R. cbn [k64_ops k_store16].
    eapply runs_eq; [apply (r_k64_store cf m s 0 8 p); auto; [lia|]|reflexivity|]; change (2 * N.of_nat 0) with 0; rewrite padd_0; auto.
  - intros m p bs B H L. cbn [k64_ops k_load16].
    eapply runs_bind; [apply (lax_load_lanes cf m p 8 bs); auto|].
    eapply runs_eq; [apply runs_ret| |reflexivity]. apply of_lanes_bytes; auto. now rewrite L.
Qed.

(* ---------- both instances ---------- *)

Notation csK v := (ref_consts (v_macros v)).
Lemma k_consts v : kv v -> csK v = csk v.
Proof. intros [-> | ->]; reflexivity. Qed.
Lemma k_inst v : kv v -> i_sz (v_inst v) = 50%nat /\ i_rate (v_inst v) = 18%nat /\ i_perm (v_inst v) = keccak_p.
Proof. intros [-> | ->]; auto. Qed.
Lemma k_rnd v (okr : N -> Prop) : kv v -> okr 1 -> okr 8 -> okr 12 -> okr 16 -> okr 20 ->
  (krH (k_rounds v) = N.of_nat (i_sH (v_inst v)) /\ okr (krH (k_rounds v))) /\
  (krB (k_rounds v) = N.of_nat (i_sB (v_inst v)) /\ okr (krB (k_rounds v))) /\
  (krE (k_rounds v) = N.of_nat (i_sE (v_inst v)) /\ okr (krE (k_rounds v))) /\
  (krK (k_rounds v) = N.of_nat (i_sK (v_inst v)) /\ okr (krK (k_rounds v))).
Proof. intros [-> | ->] H1 H8 H12 H16 H20; repeat split; assumption. Qed.
Lemma k_iv v : kv v -> forall ty, ty < 4 -> bytes (Spec.iv (v_inst v) ty).
Proof. intros [-> | ->] ty H; unfold Spec.iv; repeat constructor; cbn; lia. Qed.

Lemma k64_mac v scr cf : kv v -> scr_ok scr -> strict cf = false ->
  mac_spec_s v (csK v) (fun _ => True) no_cond (2 ^ 64) (slk 24) (isap_mac (k64_ops scr) (k_rounds v) cf).
Proof.
  intros Hv Hscr Hs. rewrite k_consts by auto. destruct (k_inst v Hv) as (Hsz & Hra & Hp).
  destruct (k_rnd v k64_r Hv) as (HH & HB & HE & HK); try (unfold k64_r; tauto).
  exact (mac_k_ok v (k_rounds v) 50 24 k64_r cf _ kp (k64_ops_ok scr cf Hscr Hs) Hs Hsz Hra Hp HH HB HE HK (k_iv v Hv)).
Qed.
Lemma k64_enc v scr cf : kv v -> scr_ok scr -> strict cf = false ->
  enc_spec_l v (csK v) (fun _ => True) no_cond (2 ^ 64) (isap_enc (k64_ops scr) (k_rounds v) cf).
Proof.
  intros Hv Hscr Hs. rewrite k_consts by auto. destruct (k_inst v Hv) as (Hsz & Hra & Hp).
  destruct (k_rnd v k64_r Hv) as (HH & HB & HE & HK); try (unfold k64_r; tauto).
  exact (enc_k_ok v (k_rounds v) 50 24 k64_r cf _ kp (k64_ops_ok scr cf Hscr Hs) Hs Hsz Hra Hp HH HB HE HK (k_iv v Hv)).
Qed.
Lemma k_ne v : kv v -> forall i, (i < length (csK v))%nat -> nth i (csK v) [] <> [].
Proof. intros [-> | ->] i H; change (i < 3)%nat in H; destruct i as [|[|[|i]]]; (discriminate || lia). Qed.
Lemma slk24 n : (slk 24 n <= n + 16)%nat.
Proof. unfold slk. destruct (n <? 18)%nat; lia. Qed.
Lemma six_slk mm ad A : has mm ad A -> (length A < 18)%nat \/ room mm ad (18 * (length A / 18) + 6) -> room mm ad (slk 24 (length A)).
Proof.
  intros H Hx. unfold slk. destruct (Nat.ltb_spec (length A) 18); [now apply room_has|]. destruct Hx as [Hx|Hx]; [lia|].
  intros i Hi. destruct (Nat.lt_ge_cases i (length A)); [now apply (room_has _ _ _ H)|]. apply Hx. lia.
Qed.

Lemma k64_correct v scr cf : kv v -> scr_ok scr -> strict cf = false -> impl_ok_if (v_inst v) cf (csK v) six_more (impl_k64 v scr cf).
Proof.
  intros Hv Hscr Hs. constructor.
  - intros mm c clen m ad npub k K Nn A T Hx V.
    apply (api_enc_ok_s v cf (csK v) (fun _ => True) no_cond (2 ^ 64) (slk 24)); auto using k64_mac, k64_enc, k_ne, slk24.
    + intros b _. exact Logic.I.
    + apply (ev_ad _ _ _ _ _ _ _ _ _ _ _ _ _ V).
    + destruct (ev_msg _ _ _ _ _ _ _ _ _ _ _ _ _ V) as [_ H]. lia.
    + apply six_slk; auto. apply (ev_ad _ _ _ _ _ _ _ _ _ _ _ _ _ V).
  - intros mm m mlen c ad npub k K Nn A Y Hx V.
    apply (api_dec_ok_s v cf (csK v) (fun _ => True) no_cond (2 ^ 64) (slk 24)); auto using k64_mac, k64_enc, k_ne, slk24.
    + intros b _. exact Logic.I.
    + apply (dv_ad _ _ _ _ _ _ _ _ _ _ _ _ _ V).
    + destruct (dv_ct _ _ _ _ _ _ _ _ _ _ _ _ _ V) as [_ [H _]]. lia.
    + apply six_slk; auto. apply (dv_ad _ _ _ _ _ _ _ _ _ _ _ _ _ V).
Qed.

(* ---------- without the six bytes ---------- *)

Lemma ubs_while {A} (I : nat -> A) (mm : nat -> mem) j fuel cond body : (j < fuel)%nat ->
  (forall k, (k < j)%nat -> cond (I k) = true /\ runs (body (I k)) (mm k) (I (S k)) (mm (S k))) ->
  cond (I j) = true -> ubs (body (I j)) (mm j) -> ubs (while_ fuel cond body (I 0%nat)) (mm 0%nat).
Proof.
  revert I mm fuel; induction j as [|j IH]; intros I mm fuel Hj Hr Hc Hu; destruct fuel as [|fuel]; try lia; cbn [while_].
  - eapply ubs_bind2; [apply runs_branch|]. rewrite Hc. now apply ubs_bind1.
  - destruct (Hr 0%nat ltac:(lia)) as [C0 R0]. eapply ubs_bind2; [apply runs_branch|]. rewrite C0.
    eapply ubs_bind2; [exact R0|]. apply (IH (fun k => I (S k)) (fun k => mm (S k)) fuel); auto; try lia.
    intros k Hk. apply Hr. lia.
Qed.
Lemma ubs_if {A} (b : bool) (f g : M A) m : (if b then ubs f m else ubs g m) -> ubs (if_ b f g) m.
Proof. intros H. unfold if_. eapply ubs_bind2; [apply runs_branch|]. now destruct b. Qed.

Section Ub.
  Variables (v : variant) (scr : st -> list N) (cf : cfg).
  Hypothesis Hv : kv v.
  Hypothesis Hscr : scr_ok scr.
  Hypothesis Hs : strict cf = false.
  Notation o := (k64_ops scr).
  Notation R := (k_rounds v).
  Let Ho := k64_ops_ok scr cf Hscr Hs.
  Lemma okH : k64_r (krH R).
  Proof. destruct Hv as [-> | ->]; cbn; unfold k64_r; tauto. Qed.
  Notation pH := (kp (krH R)).
  Notation ab p := (fold_left (absorb1 p)).
  Notation wfS := (wfL 50).

  (* Seventh byte of the eight missing: so are those behind it, and one within the block suffices for those before it. *)
  Lemma no_six mm ad n : (18 <= n)%nat -> ~ room mm ad (18 * (n / 18) + 6) -> room mm ad n ->
    inside mm (padd ad (N.of_nat (18 * (n / 18) + 5))) = false.
  Proof.
    intros Hn H R. apply not_true_is_false. intros E. apply H. intros i Hi. unfold inside in *. cbn [padd pb po] in *.
    apply N.ltb_lt in E. apply N.ltb_lt. lia.
  Qed.

  Lemma ub_absorb m src x s : wfS s -> has m src x -> bytes x -> N.of_nat (length x) < 2 ^ 64 -> (18 <= length x)%nat ->
    inside m (padd src (N.of_nat (18 * (length x / 18) + 5))) = false ->
    ubs (ABSORB_MAC o R cf s src (N.of_nat (length x))) m.
  Proof.
    intros W Hx Bx Lx L18 Hout. set (l := (length x / 18 - 1)%nat).
    assert (Hl : (18 * l + 18 <= length x)%nat) by (unfold l; lia).
    set (sk := fun k => ab pH (chunks 18 (firstn (18 * k) x)) s).
    assert (Bb : forall k, bytes (firstn 18 (skipn (18 * k) x))) by (intros; now apply bytes_firstn, bytes_skipn).
    assert (Wk : forall k, wfS (sk k)).
    { intros k. apply (wfS_ab 50 24 k64_r cf o kp Ho); auto; [apply okH|]. apply chunks_Forall. now apply bytes_firstn. }
    assert (Ub : ubs (k_load_src o cf (padd src (N.of_nat (18 * l)))) m).
    { cbn [k64_ops k_load_src]. unfold k64_load_src.
      assert (Hb : has m (padd src (N.of_nat (18 * l))) (firstn 18 (skipn (18 * l) x))) by (apply has_firstn; now apply has_skipn).
      assert (Lb : length (firstn 18 (skipn (18 * l) x)) = 18%nat) by (rewrite firstn_length, skipn_length; lia).
      eapply ubs_bind2; [apply (loadn_at cf m _ _ 0 8 Hs Hb); lia|].
      eapply ubs_bind2; [apply (loadn_at cf m _ _ 8 8 Hs Hb); lia|].
      apply ubs_bind1, ub_lo16. rewrite !padd_padd. replace (N.of_nat (18 * l) + (16 + 7)) with (N.of_nat (18 * (length x / 18) + 5)) by (unfold l; lia).
      exact Hout. }
    assert (Step : forall k, (18 * k + 24 <= length x)%nat ->
      runs (absorb_full o R cf src (sk k, N.of_nat (18 * k), N.of_nat (length x - 18 * k))) m
           (sk (S k), N.of_nat (18 * S k), N.of_nat (length x - 18 * S k)) m).
    { intros k Hk. unfold absorb_full.
      eapply runs_bind.
      { apply (ko_src _ _ _ _ _ _ Ho _ _ (firstn 18 (skipn (18 * k) x))); auto.
        - apply has_firstn. now apply has_skipn.
        - rewrite firstn_length, skipn_length. lia.
        - apply (room_sub m src (length x)); [now apply room_has|lia]. }
      rewrite xor_at_0.
      eapply runs_bind; [apply (r_permute_k 50 24 k64_r cf o kp Ho); [apply okH|]; now apply (wfS_xorp 50)|].
      eapply runs_eq; [apply runs_ret| |reflexivity].
      unfold sk at 2. rewrite ab_S by lia. fold (sk k). rewrite u64_small, sub64_small by lia. repeat f_equal; lia. }
    unfold ABSORB_MAC.
    assert (E0 : (s, 0, N.of_nat (length x)) = (sk 0%nat, N.of_nat (18 * 0), N.of_nat (length x - 18 * 0))).
    { unfold sk. rewrite Nat.mul_0_r. change (firstn 0 x) with (@nil N). rewrite chunks_nil, Nat.sub_0_r. reflexivity. }
    rewrite E0.
    destruct (Nat.eq_dec (length x) (18 * l + 18)) as [E|E].
    - eapply ubs_bind2.
      { apply (runs_while (fun k => (sk k, N.of_nat (18 * k), N.of_nat (length x - 18 * k))) (fun _ => m) l)
          with (a1 := (sk l, N.of_nat (18 * l), N.of_nat (length x - 18 * l))) (m1 := m); auto.
        - rewrite E. lia.
        - intros k Hk. cbn [snd]. split; [lia|]. apply Step. lia.
        - cbn [snd]. lia. }
      cbv beta iota. apply ubs_if. replace (N.of_nat (length x - 18 * l) =? 18) with true by lia.
      apply ubs_bind1. exact Ub.
    - apply ubs_bind1.
      apply (ubs_while (fun k => (sk k, N.of_nat (18 * k), N.of_nat (length x - 18 * k))) (fun _ => m) l); auto.
      + lia.
      + intros k Hk. cbn [snd]. split; [lia|]. apply Step. lia.
      + cbn [snd]. lia.
      + unfold absorb_full. apply ubs_bind1. exact Ub.
  Qed.

  Lemma ub_mac mm k npub ad clen c tag Nn A : consts_ok (csK v) mm -> bytes_at mm npub Nn -> length Nn = 16%nat -> bytes_at mm ad A ->
    N.of_nat (length A) < 2 ^ 64 -> (18 <= length A)%nat -> inside mm (padd ad (N.of_nat (18 * (length A / 18) + 5))) = false ->
    ubs (isap_mac o R cf k npub ad (N.of_nat (length A)) c clen tag) mm.
  Proof.
    intros Hc [BN Hn] LN [BA HA] LA L18 Hout. rewrite k_consts in Hc by auto.
    destruct (k_inst v Hv) as (Hsz & Hra & Hp).
    assert (I1 : has mm RefIsap.ISAP_IV_A (Spec.iv_A (v_inst v))) by (apply (consts_has _ _ 0 Hc); cbn; lia).
    assert (Bi : bytes (Spec.iv_A (v_inst v))) by (apply k_iv; auto; lia).
    assert (Zl : map le_word (chunks 2 Nn) ++ map le_word (chunks 2 (Spec.iv_A (v_inst v))) ++ repeat 0 13
      = map le_word (chunks 2 (Nn ++ Spec.iv_A (v_inst v) ++ repeat 0 26))).
    { rewrite lanes_app by (now rewrite LN). rewrite lanes_app by reflexivity. change 26%nat with (2 * 13)%nat. now rewrite lanes_zero. }
    set (z := Nn ++ Spec.iv_A (v_inst v) ++ repeat 0 26) in *.
    assert (Bz : bytes z) by (unfold z; rewrite !bytes_app; repeat split; auto; apply bytes_repeat; lia).
    assert (Lz : length z = 50%nat) by (unfold z; rewrite !app_length, repeat_length, LN; reflexivity).
    destruct (ko_init _ _ _ _ _ _ Ho mm z Bz Lz) as (si & Ri & Wi & _).
    unfold isap_mac.
    eapply ubs_bind2; [apply (lax_load_lanes cf mm npub 8 Nn); auto|].
    assert (Hi : forall i, (i < 4)%nat -> runs (iv1_pair (2 * N.of_nat i)) mm (le_word (firstn 2 (skipn (2 * i) (Spec.iv_A (v_inst v))))) mm).
    { intros i Hi. destruct (k_rnd v k64_r Hv) as (HH & HB & HE & HK); try (unfold k64_r; tauto).
      apply (r_iv1 v R k64_r cf) ; auto using k_iv. }
    eapply ubs_bind2; [apply (Hi 0%nat); lia|].
    eapply ubs_bind2; [apply (Hi 1%nat); lia|].
    eapply ubs_bind2; [apply (Hi 2%nat); lia|].
    eapply ubs_bind2; [apply (Hi 3%nat); lia|].
    match goal with |- context [init o (_ ++ [?a; ?b; ?c; ?d] ++ _)] =>
      change [a; b; c; d] with (map le_word (chunks 2 (Spec.iv_A (v_inst v)))) end.
    rewrite Zl.
    eapply ubs_bind2; [exact Ri|].
    eapply ubs_bind2; [apply (r_permute_k 50 24 k64_r cf o kp Ho); [apply okH|exact Wi]|].
    apply ubs_bind1. apply ub_absorb; auto. apply (wfS_perm 50 24 k64_r cf o kp Ho); auto. apply okH.
  Qed.

  Lemma k64_ub_enc mm c clen m ad npub k K Nn A T : enc_valid cf (csK v) mm c clen m ad npub k K Nn A T ->
    ~ six_more mm k npub ad (length A) m c (length T) ->
    forall t, a_enc (impl_k64 v scr cf) c clen m (N.of_nat (length T)) ad (N.of_nat (length A)) npub k (St mm t) = UB.
  Proof.
    intros V Hx. change (ubs (a_enc (impl_k64 v scr cf) c clen m (N.of_nat (length T)) ad (N.of_nat (length A)) npub k) mm).
    destruct V as [Vc [[Bk Hk] Lk] [[Bn Hn] Ln] [[Ba Ha] La] [[Bt Ht] Lt] [Rc Pc] [Rl [Pl Al]]
      (D1 & D2 & D3 & D4 & D5) (D6 & D7 & D8) Hf].
    unfold six_more in Hx. assert (L18 : (18 <= length A)%nat) by lia.
    assert (Hout : inside mm (padd ad (N.of_nat (18 * (length A / 18) + 5))) = false).
    { apply no_six; auto. now apply room_has. }
    cbn [impl_k64 api_aead a_enc]. unfold ApiCode.crypto_aead_encrypt, RefIsap.ISAP_TAG_SZ. rewrite u64_small by lia.
    set (m1 := putp mm clen (word_le 8 (N.of_nat (length T) + 16))).
    assert (Hl8 : room mm clen (length (word_le 8 (N.of_nat (length T) + 16)))) by now rewrite word_le_length.
    eapply ubs_bind2; [apply runs_store_ull; auto|]. fold m1.
    assert (F1 : forall q bs, has mm q bs -> disj clen 8 q (length bs) -> has m1 q bs).
    { intros q bs H1 H2. apply has_putp_disj; rewrite ?word_le_length; auto. }
    assert (C1 : consts_ok (csK v) m1) by (apply consts_putp; auto; now apply k_ne).
    set (ct := Spec.isap_enc (v_inst v) K Nn T).
    assert (Lct : length ct = length T) by now apply v_enc_length.
    assert (Rc1 : room m1 c (length ct)).
    { apply room_putp; auto. intros i Hi. apply Rc. lia. }
    assert (Run : runs (if_ (0 <? N.of_nat (length T)) (isap_enc o R cf k npub m (N.of_nat (length T)) c) (ret tt)) m1 tt (putp m1 c ct)).
    { apply runs_if_skip.
      - intros E. apply (k64_enc v scr cf Hv Hscr Hs); auto.
        + intros b _. exact Logic.I.
        + split; auto. apply F1; auto. now rewrite Lk.
        + split; auto. apply F1; auto. now rewrite Ln.
        + split; auto.
        + lia.
        + lia.
        + now rewrite Lct in Rc1.
        + eapply disj_sub; [exact D6|lia|lia].
        + eapply disj_sub; [exact D7|lia|lia].
      - intros E. assert (length T = 0)%nat by lia. destruct ct; [now rewrite putp_nil|]. cbn [length] in Lct. lia. }
    eapply ubs_bind2; [exact Run|]. set (m2 := putp m1 c ct).
    assert (F2 : forall q bs, has m1 q bs -> disj c (length T + 16) q (length bs) -> has m2 q bs).
    { intros q bs H1 H2. apply has_putp_disj; auto. apply (disj_sub _ _ _ _ _ _ H2); lia. }
    apply ubs_bind1. apply (ub_mac m2 k npub ad _ c _ Nn A); auto.
    - apply consts_putp; auto.
    - split; auto. apply F2; [apply F1; auto|]; now rewrite Ln.
    - split; auto.
    - unfold m2, m1. now rewrite !inside_putp.
  Qed.

  Lemma k64_ub_dec mm m mlen c ad npub k K Nn A Y : dec_valid cf (csK v) mm m mlen c ad npub k K Nn A Y ->
    ~ six_more mm k npub ad (length A) c m (length Y - 16)%nat ->
    forall t, a_dec (impl_k64 v scr cf) m mlen c (N.of_nat (length Y)) ad (N.of_nat (length A)) npub k (St mm t) = UB.
  Proof.
    intros V Hx. change (ubs (a_dec (impl_k64 v scr cf) m mlen c (N.of_nat (length Y)) ad (N.of_nat (length A)) npub k) mm).
    destruct V as [Vc [[Bk Hk] Lk] [[Bn Hn] Ln] [[Ba Ha] La] [[By Hy] [Ly Gy]] [Rm Pm] [Rl [Pl Al]]
      (D1 & D2 & D3 & D4 & D5) (D6 & D7 & D8) Hf].
    unfold six_more in Hx. assert (L18 : (18 <= length A)%nat) by lia.
    assert (Hout : inside mm (padd ad (N.of_nat (18 * (length A / 18) + 5))) = false).
    { apply no_six; auto. now apply room_has. }
    cbn [impl_k64 api_aead a_dec]. unfold ApiCode.crypto_aead_decrypt, RefIsap.ISAP_TAG_SZ. rewrite sub64_small by lia.
    set (n := (length Y - 16)%nat) in *. replace (N.of_nat (length Y) - 16) with (N.of_nat n) in * by lia.
    set (m1 := putp mm mlen (word_le 8 (N.of_nat n))).
    assert (Hl8 : room mm mlen (length (word_le 8 (N.of_nat n)))) by now rewrite word_le_length.
    eapply ubs_bind2; [apply runs_store_ull; auto|]. fold m1.
    assert (F1 : forall q bs, has mm q bs -> disj mlen 8 q (length bs) -> has m1 q bs).
    { intros q bs H1 H2. apply has_putp_disj; rewrite ?word_le_length; auto. }
    assert (C1 : consts_ok (csK v) m1) by (apply consts_putp; auto; now apply k_ne).
    assert (Hml : has m1 mlen (word_le 8 (N.of_nat n))) by now apply has_putp_same.
    assert (Hlen1 : (length (csK v) <= length m1)%nat).
    { apply Nat.le_trans with (pb mlen); auto. unfold m1. rewrite putp_length. apply Nat.lt_le_incl, (room_pb mm mlen 8); auto. lia. }
    assert (Hpa : (pb ad < length m1)%nat).
    { apply (has_pb m1 ad A); [apply F1; auto|]. intros ->. cbn [length] in L18. lia. }
    apply ubs_with_block.
    eapply ubs_bind2; [apply (runs_load_ull cf mlen (N.of_nat n)); auto; [now apply has_app|lia]|].
    apply ubs_bind1. apply (ub_mac _ k npub ad _ c _ Nn A); auto.
    - apply consts_app; auto. now apply k_ne.
    - split; auto. apply has_app. apply F1; auto. now rewrite Ln.
    - split; auto. apply has_app. apply F1; auto.
    - unfold inside, blk. cbn [padd pb]. rewrite app_nth1 by exact Hpa. change (inside m1 (padd ad (N.of_nat (18 * (length A / 18) + 5))) = false).
      unfold m1. now rewrite inside_putp.
  Qed.
End Ub.

(* ---------- associated data of lengths for which nothing behind it is read ---------- *)

Lemma k64_correct_lengths v scr cf : kv v -> scr_ok scr -> strict cf = false ->
  impl_ok_if (v_inst v) cf (csK v) (fun _ _ _ _ alen _ _ _ => (alen < 18 \/ 6 <= alen mod 18)%nat) (impl_k64 v scr cf).
Proof.
  intros Hv Hscr Hs. pose proof (k64_correct v scr cf Hv Hscr Hs) as H.
  assert (G : forall mm ad A, has mm ad A -> (length A < 18 \/ 6 <= length A mod 18)%nat ->
    (length A < 18)%nat \/ room mm ad (18 * (length A / 18) + 6)).
  { intros mm ad A HA [Hx|Hx]; [now left|right]. intros i Hi. apply (room_has _ _ _ HA). lia. }
  constructor.
  - intros mm c clen m ad npub k K Nn A T Hx V. apply (ioi_enc _ _ _ _ _ H); auto. apply G; auto.
    apply (ev_ad _ _ _ _ _ _ _ _ _ _ _ _ _ V).
  - intros mm m mlen c ad npub k K Nn A Y Hx V. apply (ioi_dec _ _ _ _ _ H); auto. apply G; auto.
    apply (dv_ad _ _ _ _ _ _ _ _ _ _ _ _ _ V).
Qed.

(* ---------- an example ---------- *)

Definition ex_A18 : list N := map N.of_nat (seq 1 18).
Definition ex_scr : st -> list N := fun z => repeat (N.of_nat (length (strc z)) mod 2 ^ 16) 61.
Lemma ex_scr_ok : scr_ok ex_scr.
Proof.
  intros z. split; [apply repeat_length|]. apply Forall_forall. intros w H. apply repeat_spec in H. subst. apply N.mod_lt. discriminate.
Qed.
Lemma ex_bytes_A18 : bytes ex_A18.
Proof. unfold ex_A18. repeat constructor; cbn; lia. Qed.
Lemma ex18_valid v : enc_valid lax_cf (csK v) (ex_mem (csK v) ex_K ex_N ex_A18 ex_T 35) (ex_ptr (csK v) 4) (ex_ptr (csK v) 5)
    (ex_ptr (csK v) 3) (ex_ptr (csK v) 2) (ex_ptr (csK v) 1) (ex_ptr (csK v) 0) ex_K ex_N ex_A18 ex_T.
Proof.
  apply (ex_enc_valid lax_cf (csK v) ex_K ex_N ex_A18 ex_T); auto using ex_bytes_K, ex_bytes_N, ex_bytes_A18, ex_bytes_T; reflexivity.
Qed.
Lemma ex18_no_six v : ~ six_more (ex_mem (csK v) ex_K ex_N ex_A18 ex_T 35) (ex_ptr (csK v) 0) (ex_ptr (csK v) 1) (ex_ptr (csK v) 2)
  (length ex_A18) (ex_ptr (csK v) 3) (ex_ptr (csK v) 4) (length ex_T).
Proof.
  unfold six_more. change (length ex_A18) with 18%nat. intros [H|H]; [lia|].
  specialize (H 23%nat ltac:(cbn; lia)). destruct v; discriminate H.
Qed.
Lemma k64_overread v : kv v -> exists cf scr K Nn A T mm c clen m ad npub k,
  strict cf = false /\ scr_ok scr /\ enc_valid cf (csK v) mm c clen m ad npub k K Nn A T /\
  forall t, a_enc (impl_k64 v scr cf) c clen m (N.of_nat (length T)) ad (N.of_nat (length A)) npub k (St mm t) = UB.
Proof.
  intros Hv. exists lax_cf, ex_scr. do 11 eexists. split; [reflexivity|]. split; [exact ex_scr_ok|]. split; [exact (ex18_valid v)|].
  exact (k64_ub_enc v ex_scr lax_cf Hv ex_scr_ok eq_refl _ _ _ _ _ _ _ _ _ _ _ (ex18_valid v) (ex18_no_six v)).
Qed.
