(* Concrete calls of the optimised ISAP-A-128A implementations. *)
From Verif Require Import Base Prog Poly SpecPerm Words Mem Vocab Vocab2 MemProof RefLib RefProof RefAead SpecFacts Api ApiProps ExLib.
From Verif Require Import OptPerm OptIsap OptProof OptImpl.
From Verif Require Spec RefIsap.
Open Scope N_scope.

(* A machine that permits misaligned accesses, and one that does not. *)
Definition lax_cf : cfg := Cfg true false (fun b => 64 * N.of_nat b).
Definition strict_cf : cfg := Cfg true true (fun b => 64 * N.of_nat b).

Lemma strict_al8 i : al8 strict_cf (P i 0).
Proof.
  apply al8_base. cbn [strict_cf base pb po]. rewrite N.add_0_r. replace (64 * N.of_nat i) with (8 * N.of_nat i * 8) by lia.
  apply N.mod_mul. lia.
Qed.

Lemma ex_opt_enc cf K Nn A T : aligned cf (ex_ptr opt_consts 5) 8 = true -> bytes K -> length K = 16%nat -> bytes Nn -> length Nn = 16%nat ->
  bytes A -> N.of_nat (length A) < 2 ^ 64 -> bytes T -> N.of_nat (length T) + 16 < 2 ^ 64 ->
  enc_valid cf opt_consts (ex_mem opt_consts K Nn A T (length T + 16)) (ex_ptr opt_consts 4) (ex_ptr opt_consts 5) (ex_ptr opt_consts 3)
    (ex_ptr opt_consts 2) (ex_ptr opt_consts 1) (ex_ptr opt_consts 0) K Nn A T.
Proof. apply ex_enc_valid. Qed.

(* Encryption of the empty message with empty associated data, and decryption of the 16 bytes Y. *)
Definition ex_call0 (X : aead) : M Z :=
  a_enc X (ex_ptr opt_consts 4) (ex_ptr opt_consts 5) (ex_ptr opt_consts 3) (N.of_nat (length (@nil N))) (ex_ptr opt_consts 2)
        (N.of_nat (length (@nil N))) (ex_ptr opt_consts 1) (ex_ptr opt_consts 0).
Definition ex_mem0 : mem := ex_mem opt_consts ex_K ex_N [] [] 16.
Definition ex_dcall0 (X : aead) : M Z :=
  a_dec X (ex_ptr opt_consts 4) (ex_ptr opt_consts 5) (ex_ptr opt_consts 3) (N.of_nat (length (repeat 0 16))) (ex_ptr opt_consts 2)
        (N.of_nat (length (@nil N))) (ex_ptr opt_consts 1) (ex_ptr opt_consts 0).
Definition tag_good : list N := [14; 132; 92; 109; 175; 214; 7; 148; 22; 48; 100; 231; 120; 190; 84; 101].
Definition tag_v7m : list N := [233; 102; 36; 10; 15; 212; 74; 27; 190; 182; 89; 68; 126; 91; 162; 214].
Definition ex_dmem0 : mem := ex_mem opt_consts ex_K ex_N [] tag_good 0.

Lemma ex_valid0 : enc_valid lax_cf opt_consts ex_mem0 (ex_ptr opt_consts 4) (ex_ptr opt_consts 5) (ex_ptr opt_consts 3)
    (ex_ptr opt_consts 2) (ex_ptr opt_consts 1) (ex_ptr opt_consts 0) ex_K ex_N [] [].
Proof. apply (ex_opt_enc lax_cf ex_K ex_N [] []); auto using ex_bytes_K, ex_bytes_N; try reflexivity; constructor. Qed.
Lemma ex_dvalid0 : dec_valid lax_cf opt_consts ex_dmem0 (ex_ptr opt_consts 4) (ex_ptr opt_consts 5) (ex_ptr opt_consts 3)
    (ex_ptr opt_consts 2) (ex_ptr opt_consts 1) (ex_ptr opt_consts 0) ex_K ex_N [] tag_good.
Proof.
  apply (ex_dec_valid lax_cf opt_consts ex_K ex_N [] tag_good); auto using ex_bytes_K, ex_bytes_N; try reflexivity; repeat constructor.
Qed.

Definition mem_after (t : list N) : mem :=
  map (map Some) opt_consts ++ [map Some ex_K; map Some ex_N; []; []; map Some t; map Some [16; 0; 0; 0; 0; 0; 0; 0]].

Lemma run_good : runs (ex_call0 (opt_impl opt_64 lax_cf (repeat 0 5))) ex_mem0 0%Z (mem_after tag_good).
Proof. apply out_runs. intros t. vm_compute. reflexivity. Qed.
Lemma run_v7m junk : runs (ex_call0 (opt_impl bi_32_armv7m lax_cf junk)) ex_mem0 0%Z (mem_after tag_v7m).
Proof. apply out_runs. intros t. vm_compute. reflexivity. Qed.
Lemma run_v7m_dec junk : exists m', runs (ex_dcall0 (opt_impl bi_32_armv7m lax_cf junk)) ex_dmem0 (-1)%Z m'.
Proof. eexists. apply out_runs. intros t. vm_compute. reflexivity. Qed.

(* opt_64 is correct, so what it computes is the ISAP ciphertext. *)
Lemma good_isap : Spec.isap_encrypt Spec.ISAP_A_128A ex_K ex_N [] [] = tag_good.
Proof.
  pose proof (fam_correct opt_64 lax_cf (repeat 0 5) ltac:(now left) eq_refl eq_refl) as H.
  pose proof (e_runs A128A lax_cf opt_consts no_cond _ H ex_mem0 _ _ _ _ _ _ _ _ _ _ (fun _ _ => Logic.I) ex_valid0) as R.
  destruct (runs_det _ _ _ _ _ _ run_good R) as [_ Em]. clear R.
  pose proof (e_has_c A128A lax_cf opt_consts ex_mem0 _ _ _ _ _ _ _ _ _ _ ex_valid0) as Hc.
  pose proof (proj1 (e_CT A128A lax_cf opt_consts ex_mem0 _ _ _ _ _ _ _ _ _ _ ex_valid0)) as Lc.
  change (v_inst A128A) with Spec.ISAP_A_128A in *. rewrite <- Em in Hc. clear Em. cbn [length Nat.add] in Lc.
  apply (nth_ext_le _ _ 0); [rewrite Lc; reflexivity|]. intros i Hi. specialize (Hc i Hi).
  rewrite Lc in Hi. revert Hc. generalize (nth i (Spec.isap_encrypt Spec.ISAP_A_128A ex_K ex_N [] []) 0). clear - Hi.
  intros x Hx.
  do 16 (destruct i as [|i]; [vm_compute in Hx; injection Hx as <-; reflexivity|]). lia.
Qed.

Lemma v7m_wrong junk : exists m1, runs (ex_call0 (opt_impl bi_32_armv7m lax_cf junk)) ex_mem0 0%Z m1 /\
  ~ has m1 (ex_ptr opt_consts 4) (Spec.isap_encrypt Spec.ISAP_A_128A ex_K ex_N [] []).
Proof.
  eexists. split; [apply run_v7m|]. rewrite good_isap. intros H. specialize (H 0%nat ltac:(cbn; lia)). vm_compute in H. discriminate.
Qed.

(* crypto_hash of the empty string. *)
Definition hash_mem : mem := map (map Some) opt_consts ++ [uninit 32].
Definition digest_good : list N := Eval vm_compute in
  match OptIsap.crypto_hash opt_64 lax_cf (P 4 0) (P 4 0) 0 (St hash_mem []) with
  | Ok _ s => map (fun c => match c with Some v => v | None => 0 end) (nth 4 (smem s) [])
  | _ => [] end.
Lemma run_hash : runs (OptIsap.crypto_hash opt_64 lax_cf (P 4 0) (P 4 0) 0) hash_mem 0%Z
  (map (map Some) opt_consts ++ [map Some digest_good]).
Proof. apply out_runs. intros t. vm_compute. reflexivity. Qed.
Lemma run_hash_v7m : exists m1, runs (OptIsap.crypto_hash bi_32_armv7m lax_cf (P 4 0) (P 4 0) 0) hash_mem 0%Z m1 /\
  ~ has m1 (P 4 0) digest_good.
Proof.
  eexists. split.
  - apply out_runs. intros t. vm_compute. reflexivity.
  - intros H. specialize (H 0%nat ltac:(cbn; lia)). vm_compute in H. discriminate.
Qed.
Lemma hash_consts : consts_ok opt_consts hash_mem.
Proof.
  intros i Hi. unfold hash_mem. rewrite blk_app1 by now rewrite map_length. unfold blk. rewrite (nth_map_lt _ _ _ []); auto.
Qed.
Lemma hash_room : room hash_mem (P 4 0) 32.
Proof. apply room_of_le. cbn. lia. Qed.
Lemma hash_empty : bytes_at hash_mem (P 4 0) [].
Proof. split; [constructor|intros i Hi; cbn [length] in Hi; lia]. Qed.
Lemma good_hash : Spec.ascon_hash [] = digest_good.
Proof.
  assert (Al : forall p, al8 lax_cf p) by (intros; now apply al8_lax).
  assert (B : bytes_at hash_mem (P 4 0) []) by (split; [constructor|intros i Hi; cbn [length] in Hi; lia]).
  destruct (fam_hash opt_64 lax_cf hash_mem (P 4 0) (P 4 0) [] (or_introl eq_refl) (fun i _ => Al (P i 0)) hash_consts B eq_refl hash_room
    (Al _) (Al _)) as [R L].
  change (N.of_nat (length (@nil N))) with 0 in R. destruct (runs_det _ _ _ _ _ _ run_hash R) as [_ Em].
    assert (H : has (putp hash_mem (P 4 0) (Spec.ascon_hash [])) (P 4 0) (Spec.ascon_hash [])).
    { apply has_putp_same. rewrite L. apply hash_room. }
    rewrite <- Em in H. clear Em R. apply (nth_ext_le _ _ 0); [rewrite L; reflexivity|]. intros i Hi. specialize (H i Hi).
    rewrite L in Hi. revert H. generalize (nth i (Spec.ascon_hash []) 0). clear - Hi. intros x Hx.
    do 32 (destruct i as [|i]; [vm_compute in Hx; injection Hx as <-; reflexivity|]). lia.
Qed.

(* A machine that traps misaligned accesses, with block 4 at an odd address. *)
Definition odd_cf : cfg := Cfg true true (fun b => 64 * N.of_nat b + (if (b =? 4)%nat then 1 else 0)).
Lemma odd_valid : enc_valid odd_cf opt_consts (ex_mem opt_consts ex_K ex_N ex_A ex_T 35) (ex_ptr opt_consts 4) (ex_ptr opt_consts 5)
  (ex_ptr opt_consts 3) (ex_ptr opt_consts 2) (ex_ptr opt_consts 1) (ex_ptr opt_consts 0) ex_K ex_N ex_A ex_T.
Proof.
  apply (ex_enc_valid odd_cf opt_consts ex_K ex_N ex_A ex_T); auto using ex_bytes_K, ex_bytes_N, ex_bytes_A, ex_bytes_T; reflexivity.
Qed.
Lemma odd_traps a junk t : a_enc (opt_impl a odd_cf junk)
  (ex_ptr opt_consts 4) (ex_ptr opt_consts 5) (ex_ptr opt_consts 3) (N.of_nat (length ex_T)) (ex_ptr opt_consts 2)
  (N.of_nat (length ex_A)) (ex_ptr opt_consts 1) (ex_ptr opt_consts 0) (St (ex_mem opt_consts ex_K ex_N ex_A ex_T 35) t) = UB.
Proof. vm_compute. reflexivity. Qed.

Lemma armv7m_wrong : exists K Nn A T mm c clen m ad npub k dm dmm dmlen dc dad dnpub dk,
  enc_valid lax_cf opt_consts mm c clen m ad npub k K Nn A T /\
  dec_valid lax_cf opt_consts dmm dm dmlen dc dad dnpub dk K Nn A (Spec.isap_encrypt Spec.ISAP_A_128A K Nn A T) /\
  forall junk, exists m1 m2,
    runs (a_enc (opt_impl bi_32_armv7m lax_cf junk) c clen m (N.of_nat (length T)) ad (N.of_nat (length A)) npub k) mm 0%Z m1 /\
    ~ has m1 c (Spec.isap_encrypt Spec.ISAP_A_128A K Nn A T) /\
    runs (a_dec (opt_impl bi_32_armv7m lax_cf junk) dm dmlen dc (N.of_nat (length T + 16)) dad (N.of_nat (length A)) dnpub dk) dmm (-1)%Z m2.
Proof.
  exists ex_K, ex_N, [], [], ex_mem0, (ex_ptr opt_consts 4), (ex_ptr opt_consts 5), (ex_ptr opt_consts 3), (ex_ptr opt_consts 2),
    (ex_ptr opt_consts 1), (ex_ptr opt_consts 0), (ex_ptr opt_consts 4), ex_dmem0, (ex_ptr opt_consts 5), (ex_ptr opt_consts 3), (ex_ptr opt_consts 2),
    (ex_ptr opt_consts 1), (ex_ptr opt_consts 0).
  split; [exact ex_valid0|]. split; [rewrite good_isap; exact ex_dvalid0|]. intros junk.
  destruct (v7m_wrong junk) as (m1 & R1 & N1). destruct (run_v7m_dec junk) as (m2 & R2).
  exists m1, m2. split; [exact R1|]. split; [exact N1|exact R2].
Qed.

Lemma armv7m_hash_wrong : exists m out inp X m1,
  consts_ok opt_consts m /\ bytes_at m inp X /\ room m out 32 /\
  runs (OptIsap.crypto_hash bi_32_armv7m lax_cf out inp (N.of_nat (length X))) m 0%Z m1 /\ ~ has m1 out (Spec.ascon_hash X).
Proof.
  destruct run_hash_v7m as (m1 & R & H). exists hash_mem, (P 4 0), (P 4 0), [], m1.
  split; [exact hash_consts|]. split; [split; [constructor|intros i Hi; cbn [length] in Hi; lia]|].
  split; [exact hash_room|]. split; [exact R|]. now rewrite good_hash.
Qed.

Lemma misaligned_traps : exists cf mm c clen m ad npub k K Nn A T,
  strict cf = true /\ enc_valid cf opt_consts mm c clen m ad npub k K Nn A T /\
  forall a junk t,
    a_enc (opt_impl a cf junk) c clen m (N.of_nat (length T)) ad (N.of_nat (length A)) npub k (St mm t) = UB.
Proof.
  exists odd_cf. do 11 eexists. split; [reflexivity|]. split; [exact odd_valid|exact odd_traps].
Qed.
