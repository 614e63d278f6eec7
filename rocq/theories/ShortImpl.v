(* Short ciphertexts, for the implementations. Proofs only. *)
From Verif Require Import Base SpecPerm Words Mem Vocab Vocab2 VocabK MemProof RefLib RefProof RefAead SpecFacts Api ApiProof ExLib OptPerm OptIsap OptStp OptProof OptImpl OptEx
  A128Impl KIsap KIsapProof K64Impl KAvxImpl KArmPerm KArm KArmImpl AvxA AvxAProof AvxAImpl Table ShortUb.
From Verif Require RefIsap.
Open Scope N_scope.

Lemma short_optimised cf W X mm m mlen c clen ad adlen npub k : optimised cf W X -> adlen < 2 ^ 64 ->
  clen < 16 -> room mm mlen 8 -> aligned cf mlen 8 = true -> (pb c < length mm)%nat ->
  N.of_nat (length (blk mm (pb c))) < po c + (2 ^ W - 16 + clen) ->
  forall t, a_dec X m mlen c clen ad adlen npub k (St mm t) = UB.
Proof.
  intros HX Ha H1 H2 H3 H4 H5.
  assert (HW : 4 < W <= 64) by (destruct HX as [[-> _]|[[-> _]|[[H _]|[[H _]|[[-> _]|[[-> _]|[[-> _]|[-> _]]]]]]]]; lia).
  assert (S : short_call W cf mm mlen c clen) by (unfold short_call; auto).
  destruct HX as [[-> (a & junk & ->)]|[[-> (a & junk & ->)]|[[H ->]|[[H ->]|[[-> [->| ->]]|[[-> (v & scr & ->)]|[[-> (junk & scr & ->)]|[-> (v & f & scr & ->)]]]]]]]].
  - apply (short_api 64); auto. apply opt_reads.
  - intros t. apply (short_start 64 cf (OptStp.isap_mac a cf)); auto. apply stp_reads.
  - apply (short_api W cf (isap_encA W cf) (isap_macA W cf)); auto. apply avxa_reads. lia.
  - apply (short_api W); auto. apply a64_reads. lia.
  - apply (short_api 64); auto. apply a32_reads.
  - apply (short_api 64); auto. apply a32_reads.
  - apply (short_api 64); auto. apply k_reads, k64_pu.
  - apply (short_api 64); auto. apply k_reads, kavx_pu. intros b L r s m0 t0 E1 E2. cbn. unfold any1. auto.
  - apply (short_api 32); auto. apply arm_reads.
Qed.

Lemma short_case cf W X cs Y : optimised cf W X -> strict cf = false -> bytes Y -> (length Y < 16)%nat ->
  exists mm m mlen c ad npub k,
    consts_ok cs mm /\ bytes_at mm k ex_K /\ bytes_at mm npub ex_N /\ bytes_at mm ad ex_A /\ bytes_at mm c Y /\
    room mm mlen 8 /\ aligned cf mlen 8 = true /\
    forall t, a_dec X m mlen c (N.of_nat (length Y)) ad (N.of_nat (length ex_A)) npub k (St mm t) = UB.
Proof.
  intros HX Hs BY LY.
  exists (ex_mem cs ex_K ex_N ex_A Y 0), (ex_ptr cs 4), (ex_ptr cs 5), (ex_ptr cs 3), (ex_ptr cs 2), (ex_ptr cs 1), (ex_ptr cs 0).
  assert (R : room (ex_mem cs ex_K ex_N ex_A Y 0) (ex_ptr cs 5) 8) by (apply ex_room; cbn; lia).
  assert (Al : aligned cf (ex_ptr cs 5) 8 = true) by (unfold aligned; now rewrite Hs).
  split; [apply ex_consts|].
  split; [split; [apply ex_bytes_K|now apply ex_has]|]. split; [split; [apply ex_bytes_N|now apply ex_has]|].
  split; [split; [apply ex_bytes_A|now apply ex_has]|]. split; [split; [exact BY|now apply ex_has]|].
  split; [exact R|]. split; [exact Al|].
  apply (short_optimised cf W); auto; [reflexivity|lia| |].
  - unfold ex_mem, ex_ptr. cbn [pb]. rewrite app_length, map_length. cbn [length]. lia.
  - assert (HW : 5 < W) by (destruct HX as [[-> _]|[[-> _]|[[H _]|[[H _]|[[-> _]|[[-> _]|[[-> _]|[-> _]]]]]]]]; lia).
    unfold ex_ptr at 1 2. cbn [pb po]. rewrite ex_blk. cbn [nth]. rewrite map_length.
    assert (G : 2 ^ 6 <= 2 ^ W) by (apply N.pow_le_mono_r; lia). change (2 ^ 6) with 64 in G. lia.
Qed.
