(* Property C57: KeccakP-400-reference.c executed access by access (KMem.v), alone and under crypto_aead_encrypt and crypto_aead_decrypt of the
   Keccak builds. Only statements: proofs are in KMemProof.v and KMemApi.v. *)
From Verif Require Import Base SpecPerm Words Mem Vocab RefAead SpecFacts Api ExLib PropsRef KMem KMemProof KMemApi.
From Verif Require Import Spec.
Open Scope N_scope.

(* The state in block b; the local arrays are new blocks behind all others. On a machine trapping misaligned accesses arrays of lanes start at
   even addresses. *)
Theorem C57_keccak_reference_in_memory cf m b s r :
  (forall b', b' = b \/ (length m <= b')%nat -> strict cf = true -> base cf b' mod 2 = 0) ->
  (r <= 20)%nat -> blk m b = map Some s -> bytes s -> length s = 50%nat ->
  runs (Permute_Nrounds cf (P b 0) (N.of_nat r)) m tt (upd_nth m b (map Some (keccak_p r s))).
Proof. exact (runs_KMem cf m b s r). Qed.
Print Assumptions C57_keccak_reference_in_memory.

Theorem C57_permute_20rounds cf m b s :
  (forall b', b' = b \/ (length m <= b')%nat -> strict cf = true -> base cf b' mod 2 = 0) ->
  blk m b = map Some s -> bytes s -> length s = 50%nat ->
  runs (Permute_20rounds cf (P b 0)) m tt (upd_nth m b (map Some (keccak_p 20 s))).
Proof. intros H. exact (runs_KMem cf m b s 20 H (le_n 20)). Qed.
Print Assumptions C57_permute_20rounds.

(* A request for more rounds than Keccak-p[400] has is answered by no round at all. *)
Theorem C57_too_many_rounds cf p m r : (20 < r)%nat -> N.of_nat r < 2 ^ 32 -> runs (Permute_Nrounds cf p (N.of_nat r)) m tt m.
Proof. exact (runs_KMem_none cf p m r). Qed.
Print Assumptions C57_too_many_rounds.

Theorem C57_accesses_do_not_depend_on_the_state cf m m' b s s' r :
  (forall b', b' = b \/ (length m <= b')%nat -> strict cf = true -> base cf b' mod 2 = 0) ->
  (r <= 20)%nat -> layout m m' ->
  blk m b = map Some s -> bytes s -> length s = 50%nat -> blk m' b = map Some s' -> bytes s' -> length s' = 50%nat ->
  forall t, exists s1 s2, Permute_Nrounds cf (P b 0) (N.of_nat r) (St m t) = Ok tt s1 /\
    Permute_Nrounds cf (P b 0) (N.of_nat r) (St m' t) = Ok tt s2 /\ strc s1 = strc s2.
Proof. exact (mem_perm_trace cf m m' b s s' r). Qed.
Print Assumptions C57_accesses_do_not_depend_on_the_state.

Theorem C57_encryption v cf mm c clen m ad npub k K Nn A T :
  v = K128A \/ v = K128 -> ref_locals v cf mm -> ref_enc_valid v cf mm c clen m ad npub k K Nn A T ->
  runs (a_enc (mem_impl (v_macros v) cf) c clen m (N.of_nat (length T)) ad (N.of_nat (length A)) npub k) mm 0%Z
       (putp (putp mm clen (word_le 8 (N.of_nat (length T) + 16))) c (isap_encrypt (v_inst v) K Nn A T)).
Proof. intros Hv. exact (io_enc _ _ _ _ _ (mem_correct v cf Hv) mm c clen m ad npub k K Nn A T). Qed.
Print Assumptions C57_encryption.

Theorem C57_decryption v cf mm m mlen c ad npub k K Nn A Y :
  v = K128A \/ v = K128 -> ref_locals v cf mm -> ref_dec_valid v cf mm m mlen c ad npub k K Nn A Y ->
  let m1 := putp mm mlen (word_le 8 (N.of_nat (length Y) - 16)) in
  runs (a_dec (mem_impl (v_macros v) cf) m mlen c (N.of_nat (length Y)) ad (N.of_nat (length A)) npub k) mm
       (match isap_decrypt (v_inst v) K Nn A Y with Some _ => 0%Z | None => (-1)%Z end)
       (match isap_decrypt (v_inst v) K Nn A Y with Some T => putp m1 m T | None => m1 end).
Proof. intros Hv. exact (io_dec _ _ _ _ _ (mem_correct v cf Hv) mm m mlen c ad npub k K Nn A Y). Qed.
Print Assumptions C57_decryption.

(* As in C16 and C17, now with all accesses of the permutation in the trace. *)
Theorem C57_encryption_trace v cf mm mm' c clen m ad npub k K Nn A T K' Nn' A' T' :
  v = K128A \/ v = K128 ->
  ref_locals v cf mm -> ref_enc_valid v cf mm c clen m ad npub k K Nn A T -> ref_enc_valid v cf mm' c clen m ad npub k K' Nn' A' T' ->
  length A = length A' -> length T = length T' -> layout mm mm' ->
  forall t, exists s s',
    a_enc (mem_impl (v_macros v) cf) c clen m (N.of_nat (length T)) ad (N.of_nat (length A)) npub k (St mm t) = Ok 0%Z s /\
    a_enc (mem_impl (v_macros v) cf) c clen m (N.of_nat (length T)) ad (N.of_nat (length A)) npub k (St mm' t) = Ok 0%Z s' /\
    strc s = strc s'.
Proof. intros Hv. exact (mem_enc_trace v cf Hv mm mm' c clen m ad npub k K Nn A T K' Nn' A' T'). Qed.
Print Assumptions C57_encryption_trace.

Theorem C57_decryption_trace v cf mm mm' m mlen c ad npub k K Nn A Y K' Nn' A' Y' :
  v = K128A \/ v = K128 ->
  ref_locals v cf mm -> ref_dec_valid v cf mm m mlen c ad npub k K Nn A Y -> ref_dec_valid v cf mm' m mlen c ad npub k K' Nn' A' Y' ->
  length A = length A' -> length Y = length Y' -> layout mm mm' ->
  forall t, exists r s r' s' t0 u u',
    a_dec (mem_impl (v_macros v) cf) m mlen c (N.of_nat (length Y)) ad (N.of_nat (length A)) npub k (St mm t) = Ok r s /\
    a_dec (mem_impl (v_macros v) cf) m mlen c (N.of_nat (length Y)) ad (N.of_nat (length A)) npub k (St mm' t) = Ok r' s' /\
    (* t0 is common, then the verdict branch, then u / u' *)
    strc s = u ++ EBr (r =? 0)%Z :: t0 /\ strc s' = u' ++ EBr (r' =? 0)%Z :: t0 /\
    (r <> 0%Z -> u = []) /\ (r' <> 0%Z -> u' = []) /\ (r = r' -> u = u').
Proof. intros Hv. exact (mem_dec_trace v cf Hv mm mm' m mlen c ad npub k K Nn A Y K' Nn' A' Y'). Qed.
Print Assumptions C57_decryption_trace.

(* As in C18. *)
Theorem C57_encryption_work v cf mm c clen m ad npub k K Nn A T :
  v = K128A \/ v = K128 -> ref_locals v cf mm -> ref_enc_valid v cf mm c clen m ad npub k K Nn A T ->
  forall t, exists s,
    a_enc (mem_impl (v_macros v) cf) c clen m (N.of_nat (length T)) ad (N.of_nat (length A)) npub k (St mm t) = Ok 0%Z s /\
    perms (strc s) = perms t ++ calls_enc (v_inst v) (length T) ++ calls_mac (v_inst v) (length A) (length T).
Proof. intros Hv. exact (mem_enc_calls v cf Hv mm c clen m ad npub k K Nn A T). Qed.
Print Assumptions C57_encryption_work.

Theorem C57_decryption_work v cf mm m mlen c ad npub k K Nn A Y :
  v = K128A \/ v = K128 -> ref_locals v cf mm -> ref_dec_valid v cf mm m mlen c ad npub k K Nn A Y ->
  forall t, exists r s,
    a_dec (mem_impl (v_macros v) cf) m mlen c (N.of_nat (length Y)) ad (N.of_nat (length A)) npub k (St mm t) = Ok r s /\
    perms (strc s) = perms t ++ calls_mac (v_inst v) (length A) (length Y - 16) ++
      (if (r =? 0)%Z then calls_enc (v_inst v) (length Y - 16) else []).
Proof. intros Hv. exact (mem_dec_calls v cf Hv mm m mlen c ad npub k K Nn A Y). Qed.
Print Assumptions C57_decryption_work.

(* ---- The hypotheses can be met, on a machine trapping misaligned accesses. ---- *)

Example ex_C57_lanes mm b : forall b', b' = b \/ (@length block mm <= b')%nat -> strict ex_cf = true -> base ex_cf b' mod 2 = 0.
Proof. intros b' _ _. exact (ex_locals K128 [] b' (Nat.le_0_l b') eq_refl). Qed.
(* The state 0, 1, ..., 49 in the second of three blocks: after 20 rounds, read access by access, its first lane is that of the specification,
   the other blocks are as before. *)
Example ex_C57_run : exists m1 w, runs (Permute_20rounds ex_cf (P 1 0)) [[Some 5]; map Some (map N.of_nat (seq 0 50)); [None]] tt m1 /\
  nth 0 m1 [] = [Some 5] /\ firstn 2 (nth 1 m1 []) = map Some w /\ w = firstn 2 (keccak_p 20 (map N.of_nat (seq 0 50))) /\ nth 2 m1 [] = [None].
Proof.
  eexists _, _. split.
  - apply C57_permute_20rounds with (s := map N.of_nat (seq 0 50)); [exact (ex_C57_lanes _ 1)|reflexivity| |reflexivity].
    apply Forall_forall. intros x H. apply in_map_iff in H as (k & <- & H). apply in_seq in H. lia.
  - split; [reflexivity|]. split; [|split; reflexivity]. cbn [upd_nth nth]. now rewrite firstn_map.
Qed.
(* One state differs from another one in all bytes, in memories of the same layout. *)
Example ex_C57_two : layout [map Some (repeat 0 50)] [map Some (repeat 255 50)] /\ repeat 0 50 <> repeat 255 50.
Proof. split; [reflexivity|discriminate]. Qed.
(* Calls of the API: those of PropsRef.v. *)
Example ex_C57_call : ref_locals K128 ex_cf (ex_mem (ref_consts (v_macros K128)) ex_K ex_N ex_A ex_T 35) /\
  ref_enc_valid K128 ex_cf (ex_mem (ref_consts (v_macros K128)) ex_K ex_N ex_A ex_T 35)
    (ex_ptr (ref_consts (v_macros K128)) 4) (ex_ptr (ref_consts (v_macros K128)) 5) (ex_ptr (ref_consts (v_macros K128)) 3)
    (ex_ptr (ref_consts (v_macros K128)) 2) (ex_ptr (ref_consts (v_macros K128)) 1) (ex_ptr (ref_consts (v_macros K128)) 0) ex_K ex_N ex_A ex_T.
Proof. split; [apply ex_locals|apply ex_enc]. Qed.
