(* genkat_hash.c and bulk.c. Proofs only. *)
From Coq Require Import Ascii String.
From Verif Require Import Base Prog SpecPerm Words Mem Vocab Vocab2 VocabK MemProof RefLib RefProof RefAead RefIsap SpecFacts Api ExLib
  OptPerm OptIsap OptStp OptProof OptImpl StpProof StpEx A128Impl KIsapProof K64Impl KAvxImpl KArmProof KArmImpl AvxAProof AvxAImpl Table TableProof
  Genkat VocabKat GenkatProof GenkatImpl.
From Verif Require Spec.
Open Scope N_scope.
Open Scope cm_scope.
Local Notation length := List.length.

(* ---------- genkat_hash.c ---------- *)

Section Hash.
  Variables (hash : ptr -> ptr -> N -> M Z) (H : list N -> list N) (mm : mem).
  Notation n := (length mm).
  Hypothesis Hh : forall m t, length m = (n + 2)%nat -> same mm m -> blk m n = map Some (count_up 1024) -> length (blk m (n + 1)) = 32%nat -> (t <= 1024)%nat ->
    runs (hash (P (n + 1) 0) (P n 0) (N.of_nat t)) m 0%Z (putp m (P (n + 1) 0) (H (count_up t))) /\
    length (H (count_up t)) = 32%nat.

  Record hgood (m : mem) : Prop := {
    hg_len : length m = (n + 2)%nat;
    hg_same : same mm m;
    hg_msg : blk m n = map Some (count_up 1024);
    hg_dig : length (blk m (n + 1)) = 32%nat }.

  Lemma hgood_put m bs : hgood m -> length bs = 32%nat -> hgood (putp m (P (n + 1) 0) bs).
  Proof.
    intros [H1 H2 H3 H4] L.
    assert (Hr : room m (P (n + 1) 0) (length bs)) by (apply room_of_le; cbn [pb po]; change (N.to_nat 0) with 0%nat; lia).
    constructor.
    - now rewrite putp_length.
    - apply same_put; [exact H2|cbn [pb]; lia].
    - rewrite blk_putp_other by (cbn [pb]; lia). exact H3.
    - now rewrite blk_putp_len.
  Qed.

  Lemma hcase_ok m t g : hgood m -> (t <= 1024)%nat -> g_count g = (Z.of_nat t + 1)%Z ->
    ends (hash_case hash (P n 0) (P (n + 1) 0) (N.of_nat t) g) m
      (fun r m' => hgood m' /\ r = (false, Loc 0 (Z.of_nat (S t) + 1) (g_out g ++ hash_entry H t)%string)).
  Proof.
    intros G Ht Hc. unfold hash_case.
    destruct (Hh m t (hg_len m G) (hg_same m G) (hg_msg m G) (hg_dig m G) Ht) as [Hrun Hlen].
    eapply ends_step.
    { apply bstr_count. rewrite <- (count_up_firstn t 1024) by exact Ht. apply has_blk_pre, G. }
    eapply ends_step; [exact Hrun|].
    apply ends_if. change (negb (0 =? 0)%Z) with false. cbv iota.
    assert (G1 : hgood (putp m (P (n + 1) 0) (H (count_up t)))) by (apply hgood_put; auto).
    eapply ends_step.
    { change HASH_BYTES with (N.of_nat 32). rewrite <- Hlen. apply runs_bstr. apply has_putp_same.
      apply room_of_le. cbn [pb po]. rewrite Hlen, (hg_dig m G). reflexivity. }
    apply ends_ret. split; [exact G1|]. unfold hash_entry. rewrite Hc. replace (Z.of_nat t + 1)%Z with (Z.of_nat (S t)) by lia. rewrite dec_ok, !sapp_assoc. change eol with nl.
    reflexivity.
  Qed.

  Definition hentries (k : nat) : string := String.concat "" (map (hash_entry H) (seq 0 k)).
  Lemma hentries_S k : hentries (S k) = (hentries k ++ hash_entry H k)%string.
  Proof. unfold hentries. now rewrite seq_S, map_app, sconcat_app. Qed.

  Definition htwo : mem := (mm ++ [uninit 1024]) ++ [uninit 32].
  Lemma htwo_blk0 : blk htwo n = uninit 1024.
  Proof. unfold htwo. rewrite blk_app1 by (rewrite app_length; cbn [List.length]; lia). rewrite <- (Nat.add_0_r n) at 1. apply blk_app2. Qed.
  Lemma htwo_blk1 : blk htwo (n + 1) = uninit 32.
  Proof. unfold htwo. rewrite <- app_assoc. apply (blk_app2 mm [uninit 1024; uninit 32] 1). Qed.
  Lemma htwo_len : length htwo = (n + 2)%nat.
  Proof. unfold htwo. rewrite !app_length. cbn [List.length]. lia. Qed.

  Lemma hinit_good : hgood (putp htwo (P n 0) (count_up 1024)).
  Proof.
    constructor.
    - rewrite putp_length. apply htwo_len.
    - apply same_put; [|cbn [pb]; lia]. unfold htwo. rewrite <- app_assoc. apply same_app.
    - apply blk_put_all; [rewrite htwo_len; lia|]. rewrite htwo_blk0, uninit_length. symmetry. apply count_up_length.
    - rewrite blk_putp_other by (cbn [pb]; lia). rewrite htwo_blk1. apply uninit_length.
  Qed.

  Lemma ends_two {A} (f : ptr -> ptr -> M A) (Q : A -> mem -> Prop) :
    ends (f (P n 0) (P (n + 1) 0)) htwo (fun a m' => length m' = (n + 2)%nat /\ Q a (firstn n m')) ->
    ends (with_block 1024 (fun msg => with_block 32 (fun dig => f msg dig))) mm Q.
  Proof.
    intros HE. do 2 apply ends_with_block. fold htwo. rewrite app_length. cbn [List.length].
    eapply ends_weaken; [exact HE|]. intros a m' (L & HQ).
    replace (n + 2)%nat with (S (S n)) in L by lia.
    split; [intros ->; discriminate|]. destruct (removelast_ne m' _ L) as [N2 L2]. split; [exact N2|].
    replace (removelast (removelast m')) with (firstn n m'); [exact HQ|].
    rewrite <- (firstn_all m') at 2. rewrite L. rewrite !removelast_firstn; auto; rewrite L; lia.
  Qed.

  Lemma hash_genkat : runs (genkat_hash_main hash true) mm (0%Z, Some (hash_file_name, hash_file H), ""%string) mm.
  Proof.
    assert (E : ends (genkat_hash_main hash true) mm (fun r m' => m' = mm /\ r = (0%Z, Some (hash_file_name, hash_file H), ""%string))).
    { unfold genkat_hash_main. eapply ends_bind.
      - unfold generate_hash_vectors. apply ends_two.
        eapply ends_step.
        { assert (Hr : room htwo (P n 0) 1024).
          { apply room_of_le. cbn [pb po]. rewrite htwo_blk0, uninit_length. reflexivity. }
          pose proof (runs_init htwo (P n 0) 1024 Hr) as Hi. exact Hi. }
        apply ends_if. cbn [negb].
        eapply ends_bind.
        + apply (ends_while (fun k x m' => hgood m' /\ x = (N.of_nat k, false, Loc 0 (Z.of_nat k + 1) (hentries k))) 1025).
          * apply Nat.ltb_lt. reflexivity.
          * intros k x m' Hk (G' & ->). unfold MAX_HASH_MESSAGE_LENGTH.
            assert (Hk' : (k <= 1024)%nat) by (apply Nat.lt_succ_r; exact Hk).
            split; [cbn [negb andb]; apply N.leb_le; lia|].
            eapply ends_bind; [apply (hcase_ok m' k _ G'); [exact Hk'|reflexivity]|].
            intros y m2 (G2 & ->). cbn [fst snd g_out]. apply ends_ret. split; [exact G2|]. rewrite hentries_S.
            replace (N.of_nat k + 1) with (N.of_nat (S k)) by lia. reflexivity.
          * intros x m' (_ & ->). reflexivity.
          * split; [exact hinit_good|]. reflexivity.
        + intros x m' (G & ->). apply ends_ret. cbn [snd g_ret g_out]. split; [apply G|].
          instantiate (1 := fun r m' => m' = mm /\ r = (0%Z, Some (hash_file_name, hash_file H), ""%string)).
          split; [apply (same_firstn mm m' 2); apply G|]. reflexivity.
      - intros r m' (-> & ->). apply ends_if. change (negb (0 =? KAT_SUCCESS)%Z) with false. cbv iota. apply ends_ret. auto. }
    destruct E as (r & m' & Hr & -> & ->). exact Hr.
  Qed.
End Hash.

Lemma fam_genkat_hash a cf mm : In a (fam_opt ++ fam_stp) -> (forall i, (i < 4)%nat -> al8 cf (P i 0)) ->
  al8 cf (P (length mm) 0) -> al8 cf (P (length mm + 1) 0) -> consts_ok opt_consts mm -> (4 <= length mm)%nat ->
  runs (genkat_hash_main (OptIsap.crypto_hash a cf) true) mm (0%Z, Some (hash_file_name, hash_file Spec.ascon_hash), ""%string) mm.
Proof.
  intros Ha Hal Ai Ao Hc Hn.
  assert (Lc : length opt_consts = 4%nat) by reflexivity.
  apply (hash_genkat _ Spec.ascon_hash).
  assert (F : forall m t, length m = (length mm + 2)%nat -> same mm m -> blk m (length mm) = map Some (count_up 1024) -> length (blk m (length mm + 1)) = 32%nat -> (t <= 1024)%nat ->
    runs (OptIsap.crypto_hash a cf (P (length mm + 1) 0) (P (length mm) 0) (N.of_nat t)) m 0%Z (putp m (P (length mm + 1) 0) (Spec.ascon_hash (count_up t))) /\
    length (Spec.ascon_hash (count_up t)) = 32%nat).
  { intros m t L S B D Ht. rewrite <- (count_up_length t) at 1.
    apply fam_hash; auto.
    - apply (same_consts _ mm); auto.
    - split; [apply count_up_bytes|]. rewrite <- (count_up_firstn t 1024) by exact Ht. apply has_blk_pre, B.
    - rewrite count_up_length. assert (2 ^ 64 = 18446744073709551616) by reflexivity. lia.
    - apply room_of_le. cbn [pb po]. rewrite D. reflexivity. }
  exact F.
Qed.

(* ---------- bulk.c ---------- *)

Section Bulk.
  Variables (v : variant) (cf : cfg) (cs : list (list N)) (ex : ext) (X : aead) (mm : mem).
  Hypothesis HX : impl_of v cf cs ex X.
  Notation n := (length mm).
  Hypothesis Hc : consts_ok cs mm.
  Hypothesis Hn : (length cs <= n)%nat.
  Hypothesis Al : aligned cf (P (n + 5) 0) 8 = true.
  Hypothesis Hex : bulk_calls ex n.

  Record bgood (m : mem) : Prop := {
    bg_len : length m = (n + 6)%nat;
    bg_same : same mm m;
    bg_key : blk m n = map Some (count_up 16);
    bg_nonce : blk m (n + 1) = map Some (count_up 16);
    bg_msg : blk m (n + 2) = map Some (count_up 1536);
    bg_ct : length (blk m (n + 4)) = 1552%nat;
    bg_clen : length (blk m (n + 5)) = 8%nat }.

  Lemma bgood_put m i bs : bgood m -> i = 4%nat \/ i = 5%nat -> (length bs <= length (blk m (n + i)))%nat -> bgood (putp m (P (n + i) 0) bs).
  Proof.
    intros [G1 G2 G3 G4 G5 G6 G7] Hi Hl.
    assert (Hr : room m (P (n + i) 0) (length bs)) by (apply room_of_le; cbn [pb po]; exact Hl).
    constructor.
    - now rewrite putp_length.
    - apply same_put; [exact G2|cbn [pb]; lia].
    - rewrite blk_putp_other by (cbn [pb]; lia). exact G3.
    - rewrite blk_putp_other by (cbn [pb]; lia). exact G4.
    - rewrite blk_putp_other by (cbn [pb]; lia). exact G5.
    - now rewrite blk_putp_len.
    - now rewrite blk_putp_len.
  Qed.

  Lemma bulk_step m : bgood m ->
    ends (a_enc X (P (n + 4) 0) (P (n + 5) 0) (P (n + 2) 0) 1536 (P (n + 3) 0) 0 (P (n + 1) 0) (P n 0)) m (fun _ m' => bgood m').
  Proof.
    intros G. assert (HI := impl_of_ok v cf cs ex X HX).
    set (T := count_up 1536). assert (LT : length T = 1536%nat) by apply count_up_length. assert (BT : bytes T) by apply count_up_bytes.
    assert (HT : has m (P (n + 2) 0) T) by (apply has_blk0, G).
    assert (E := Hex m (bg_len m G)).
    assert (Hl6 : (1536 <= 1552)%nat) by (apply Nat.leb_le; reflexivity).
    assert (L2 : length T = (1552 - 16)%nat) by (rewrite LT; reflexivity).
    assert (LN : N.of_nat (length T) = 1536) by (rewrite LT; reflexivity).
    rewrite <- LT in E. change 0%nat with (length (@nil N)) in E. clear LT. clearbody T.
    assert (V : enc_valid cf cs m (P (n + 4) 0) (P (n + 5) 0) (P (n + 2) 0) (P (n + 3) 0) (P (n + 1) 0) (P n 0) (count_up 16) (count_up 16) [] T).
    { assert (2 ^ 64 = 18446744073709551616) by reflexivity.
      constructor.
      - now apply (same_consts cs mm), G.
      - split; [split; [apply count_up_bytes|apply has_blk0, G]|apply count_up_length].
      - split; [split; [apply count_up_bytes|apply has_blk0, G]|apply count_up_length].
      - split; [split; [constructor|intros i Hi; cbn [List.length] in Hi; lia]|cbn [List.length]; lia].
      - split; [split; auto|lia].
      - split; [|cbn [pb]; lia]. apply room_of_le. cbn [pb po]. rewrite (bg_ct m G). change (N.to_nat 0) with 0%nat. lia.
      - split; [|split; [cbn [pb]; lia|exact Al]]. apply room_of_le. cbn [pb po]. rewrite (bg_clen m G). reflexivity.
      - repeat split; apply disj_blocks; cbn [pb]; lia.
      - repeat split; apply disj_blocks; cbn [pb]; lia.
      - apply fwd_ok_disj, disj_blocks. cbn [pb]. lia. }
    pose proof (ioi_enc _ _ _ _ _ HI _ _ _ _ _ _ _ _ _ _ _ E V) as Hr.
    assert (LY : length (Spec.isap_encrypt (v_inst v) (count_up 16) (count_up 16) [] T) = (length T + 16)%nat).
    { apply v_encrypt_length; auto using count_up_bytes, count_up_length. constructor. }
    set (Y := Spec.isap_encrypt _ _ _ _ _) in *. clearbody Y. rewrite LN in Hr. change (N.of_nat (length (@nil N))) with 0 in Hr.
    eexists _, _. split; [exact Hr|].
    assert (G1 : bgood (putp m (P (n + 5) 0) (word_le 8 (1536 + 16)))).
    { apply bgood_put; auto. rewrite word_le_length, (bg_clen m G). lia. }
    apply bgood_put; [exact G1|auto|]. apply (Nat.le_trans _ 1552); [rewrite LY; lia|]. apply Nat.eq_le_incl. symmetry. exact (bg_ct _ G1).
  Qed.

  Definition bsix : mem := (((((mm ++ [uninit 16]) ++ [uninit 16]) ++ [uninit 1536]) ++ [uninit 0]) ++ [uninit 1552]) ++ [uninit 8].
  Lemma bsix_eq : bsix = mm ++ [uninit 16; uninit 16; uninit 1536; uninit 0; uninit 1552; uninit 8].
  Proof. unfold bsix. now rewrite <- !app_assoc. Qed.
  Lemma bsix_blk i : blk bsix (n + i) = nth i [uninit 16; uninit 16; uninit 1536; uninit 0; uninit 1552; uninit 8] [].
  Proof. rewrite bsix_eq. apply blk_app2. Qed.
  Lemma bsix_blk0 : blk bsix n = uninit 16.
  Proof. rewrite <- (Nat.add_0_r n) at 1. apply (bsix_blk 0). Qed.
  Lemma bsix_len : length bsix = (n + 6)%nat.
  Proof. rewrite bsix_eq, app_length. reflexivity. Qed.

  Lemma removelast6 {A} (m : list A) k : length m = (k + 6)%nat ->
    removelast (removelast (removelast (removelast (removelast (removelast m))))) = firstn k m.
  Proof.
    intros H.
    assert (E : forall j, (j < length m)%nat -> removelast (firstn (S j) m) = firstn j m).
    { intros j Hj. rewrite removelast_firstn; auto. }
    rewrite <- (firstn_all m) at 1. rewrite H. replace (k + 6)%nat with (S (S (S (S (S (S k)))))) by lia.
    rewrite !E by lia. reflexivity.
  Qed.

  Ltac other := rewrite !blk_putp_other by (cbn [pb]; lia).
  Definition binit : mem := putp (putp (putp bsix (P n 0) (count_up 16)) (P (n + 1) 0) (count_up 16)) (P (n + 2) 0) (count_up 1536).
  Lemma binit_good : bgood binit.
  Proof.
    unfold binit. constructor.
    - rewrite !putp_length. apply bsix_len.
    - do 3 (apply same_put; [|cbn [pb]; lia]). rewrite bsix_eq. apply same_app.
    - other. apply blk_put_all; [rewrite bsix_len; lia|]. now rewrite bsix_blk0.
    - other. apply blk_put_all; [rewrite putp_length, bsix_len; lia|]. other. now rewrite bsix_blk.
    - apply blk_put_all; [rewrite !putp_length, bsix_len; lia|]. other. rewrite bsix_blk. cbn [nth]. rewrite uninit_length. symmetry. apply count_up_length.
    - other. rewrite bsix_blk. cbn [nth]. apply uninit_length.
    - other. now rewrite bsix_blk.
  Qed.

  Lemma bulk_ok : runs (bulk_main X) mm 0%Z mm.
  Proof.
    assert (E : ends (bulk_main X) mm (fun r m' => r = 0%Z /\ m' = mm)).
    { unfold bulk_main. do 6 apply ends_with_block. fold bsix.
      rewrite !app_length. cbn [List.length]. replace (n + 1 + 1)%nat with (n + 2)%nat by lia.
      replace (n + 2 + 1)%nat with (n + 3)%nat by lia. replace (n + 3 + 1)%nat with (n + 4)%nat by lia.
      replace (n + 4 + 1)%nat with (n + 5)%nat by lia.
      eapply (ends_weaken _ _ (fun r m' => r = 0%Z /\ bgood m')).
      - eapply ends_step.
        { assert (Hr : room bsix (P n 0) 16) by (apply init_room; now rewrite bsix_blk0). pose proof (runs_init _ _ _ Hr) as Q. exact Q. }
        eapply ends_step.
        { assert (Hr : room (putp bsix (P n 0) (count_up 16)) (P (n + 1) 0) 16) by (apply init_room; other; now rewrite bsix_blk).
          pose proof (runs_init _ _ _ Hr) as Q. exact Q. }
        eapply ends_step.
        { assert (Hr : room (putp (putp bsix (P n 0) (count_up 16)) (P (n + 1) 0) (count_up 16)) (P (n + 2) 0) 1536)
            by (apply init_room; other; rewrite bsix_blk; cbn [nth]; apply uninit_length).
          pose proof (runs_init _ _ _ Hr) as Q. exact Q. }
        fold binit.
        eapply ends_step. { apply (runs_init binit (P (n + 3) 0) 0). intros i Hi. lia. }
        change (count_up 0) with (@nil N). rewrite putp_nil.
        eapply ends_bind.
        + apply (ends_for (fun _ _ m' => bgood m')); [|exact binit_good].
          intros k u m' _ G. eapply ends_bind; [apply bulk_step, G|]. intros r m2 G2. now apply ends_ret.
        + intros u m' G. apply ends_ret. auto.
      - intros r m' (-> & G). pose proof (bg_len m' G) as L.
        replace (n + 6)%nat with (S (S (n + 4)))%nat in L by lia.
        assert (N1 : m' <> []) by (intros ->; discriminate).
        destruct (removelast_ne m' _ L) as [N2 L2]. replace (n + 4)%nat with (S (n + 3))%nat in L2 by lia.
        destruct (removelast_ne _ _ L2) as [N3 L3]. replace (n + 3)%nat with (S (n + 2))%nat in L3 by lia.
        destruct (removelast_ne _ _ L3) as [N4 L4]. replace (n + 2)%nat with (S (n + 1))%nat in L4 by lia.
        destruct (removelast_ne _ _ L4) as [N5 L5]. replace (n + 1)%nat with (S n)%nat in L5 by lia.
        destruct (removelast_ne _ _ L5) as [N6 L6].
        rewrite (removelast6 m' n) by apply G. rewrite (same_firstn mm m' 6) by apply G. repeat (split; [assumption|]). split; reflexivity. }
    destruct E as (r & m' & Hr & -> & ->). exact Hr.
  Qed.
End Bulk.
