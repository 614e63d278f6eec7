(* Properties C15, C19-C21, C41 and C42. Only statements: proofs are in Bij.v, LibProof.v and SpecProps.v. *)
From Verif Require Import Base SpecPerm Words Mem Vocab VocabIv MemProof RefLib Spec RefAead SpecFacts Api ApiProps ExLib PropsRef Bij LibProof SpecProps.
From Verif Require RefIsap.
Open Scope N_scope.

(* ---- C15 ---- *)

(* The tag written by encryption (and the tag demanded by decryption) is a function of key, nonce and the framed block
   sequence alone ... *)
Theorem C15_tag_from_frame v cf mm c clen m ad npub k K Nn A T :
  ref_locals v cf mm -> ref_enc_valid v cf mm c clen m ad npub k K Nn A T ->
  exists m1 C, runs (ref_encrypt v cf c clen m T ad A npub k) mm 0%Z m1 /\
    length C = length T /\ has m1 c (C ++ frame_tag (v_inst v) K Nn (frame (i_rate (v_inst v)) A C)).
Proof. exact (p_frame v cf _ _ _ (ref_if v cf) mm c clen m ad npub k K Nn A T). Qed.
Print Assumptions C15_tag_from_frame.

Theorem C15_verified_tag_from_frame v cf mm m mlen c ad npub k K Nn A C t :
  ref_locals v cf mm -> length t = 16%nat -> ref_dec_valid v cf mm m mlen c ad npub k K Nn A (C ++ t) ->
  exists r m1, runs (ref_decrypt v cf m mlen c (C ++ t) ad A npub k) mm r m1 /\
    (r = 0%Z <-> t = frame_tag (v_inst v) K Nn (frame (i_rate (v_inst v)) A C)).
Proof. exact (p_frame_dec v cf _ _ _ (ref_if v cf) mm m mlen c ad npub k K Nn A C t). Qed.
Print Assumptions C15_verified_tag_from_frame.

(* ... and the sequence determines associated data and ciphertext, for every rate. *)
Theorem C15_frame_injective r A C A' C' : (0 < r)%nat -> frame r A C = frame r A' C' -> A = A' /\ C = C'.
Proof. exact (frame_inj r A C A' C'). Qed.
Print Assumptions C15_frame_injective.

(* What the sequence looks like: bytes moved between the two strings, or appended padding, change it. *)
Example C15_case :
  frame 8 [1; 2; 3] [4; 5] = [([1; 2; 3; 128; 0; 0; 0; 0], true); ([4; 5; 128; 0; 0; 0; 0; 0], false)] /\
  frame 8 [1; 2; 3; 4] [5] <> frame 8 [1; 2; 3] [4; 5] /\
  frame 8 [1; 2; 3; 128] [4; 5] <> frame 8 [1; 2; 3] [4; 5] /\
  frame 8 [1; 2; 3; 0] [4; 5] <> frame 8 [1; 2; 3] [4; 5] /\
  frame 8 [1; 2; 3; 128; 0; 0; 0; 0] [4; 5] <> frame 8 [1; 2; 3] [4; 5] /\
  frame 8 [] [] = [([128; 0; 0; 0; 0; 0; 0; 0], true); ([128; 0; 0; 0; 0; 0; 0; 0], false)].
Proof. repeat split; try reflexivity; discriminate. Qed.

(* ---- C19 ---- *)

Theorem C19_ascon_permutation_is_specified cf m b s r :
  (r <= 12)%nat -> blk m b = map Some s -> bytes s -> length s = 40%nat ->
  runs (RefIsap.Ascon_Permute_Nrounds cf (P b 0) (N.of_nat r)) m tt (upd_nth m b (map Some (ascon_p r s))).
Proof. exact (runs_Ascon_Permute cf m b s r). Qed.
Print Assumptions C19_ascon_permutation_is_specified.

Theorem C19_ascon_permutation_injective cf cf' m m' b b' s s' r m1 m1' :
  (r <= 12)%nat -> blk m b = map Some s -> bytes s -> length s = 40%nat ->
  blk m' b' = map Some s' -> bytes s' -> length s' = 40%nat ->
  runs (RefIsap.Ascon_Permute_Nrounds cf (P b 0) (N.of_nat r)) m tt m1 ->
  runs (RefIsap.Ascon_Permute_Nrounds cf' (P b' 0) (N.of_nat r)) m' tt m1' ->
  blk m1 b = blk m1' b' -> s = s'.
Proof. exact (ascon_code_inj cf cf' m m' b b' s s' r m1 m1'). Qed.
Print Assumptions C19_ascon_permutation_injective.

Theorem C19_ascon_permutation_onto r t : (r <= 12)%nat -> bytes t -> length t = 40%nat ->
  exists s, bytes s /\ length s = 40%nat /\ forall cf m b, blk m b = map Some s ->
    runs (RefIsap.Ascon_Permute_Nrounds cf (P b 0) (N.of_nat r)) m tt (upd_nth m b (map Some t)).
Proof. exact (ascon_code_onto r t). Qed.
Print Assumptions C19_ascon_permutation_onto.

Example C19_case : exists m1,
  runs (RefIsap.Ascon_Permute_Nrounds ex_cf (P 1 0) 12) [[]; map Some (repeat 7 40)] tt m1.
Proof.
  eexists. apply (C19_ascon_permutation_is_specified ex_cf [[]; map Some (repeat 7 40)] 1 (repeat 7 40) 12); auto.
  apply bytes_repeat. reflexivity.
Qed.

(* ---- C20: on a machine trapping misaligned accesses the state must start at an even address. ---- *)

Theorem C20_keccak_permutation_is_specified cf m b s r :
  (strict cf = true -> base cf b mod 2 = 0) ->
  (r <= 20)%nat -> blk m b = map Some s -> bytes s -> length s = 50%nat ->
  runs (RefIsap.KeccakP400_Permute_Nrounds cf (P b 0) (N.of_nat r)) m tt (upd_nth m b (map Some (keccak_p r s))).
Proof. exact (runs_Keccak_Permute cf m b s r). Qed.
Print Assumptions C20_keccak_permutation_is_specified.

Theorem C20_keccak_permutation_injective cf cf' m m' b b' s s' r m1 m1' :
  (strict cf = true -> base cf b mod 2 = 0) -> (strict cf' = true -> base cf' b' mod 2 = 0) ->
  (r <= 20)%nat -> blk m b = map Some s -> bytes s -> length s = 50%nat ->
  blk m' b' = map Some s' -> bytes s' -> length s' = 50%nat ->
  runs (RefIsap.KeccakP400_Permute_Nrounds cf (P b 0) (N.of_nat r)) m tt m1 ->
  runs (RefIsap.KeccakP400_Permute_Nrounds cf' (P b' 0) (N.of_nat r)) m' tt m1' ->
  blk m1 b = blk m1' b' -> s = s'.
Proof. exact (keccak_code_inj cf cf' m m' b b' s s' r m1 m1'). Qed.
Print Assumptions C20_keccak_permutation_injective.

Theorem C20_keccak_permutation_onto r t : (r <= 20)%nat -> bytes t -> length t = 50%nat ->
  exists s, bytes s /\ length s = 50%nat /\ forall cf m b, (strict cf = true -> base cf b mod 2 = 0) -> blk m b = map Some s ->
    runs (RefIsap.KeccakP400_Permute_Nrounds cf (P b 0) (N.of_nat r)) m tt (upd_nth m b (map Some t)).
Proof. exact (keccak_code_onto r t). Qed.
Print Assumptions C20_keccak_permutation_onto.

Example C20_case : exists m1,
  runs (RefIsap.KeccakP400_Permute_Nrounds ex_cf (P 1 0) 20) [[]; map Some (repeat 7 50)] tt m1.
Proof.
  eexists. apply (C20_keccak_permutation_is_specified ex_cf [[]; map Some (repeat 7 50)] 1 (repeat 7 50) 20); auto.
  apply bytes_repeat. reflexivity.
Qed.

(* ---- C21 ---- *)

(* In range: exactly the addressed bytes. Data may lie anywhere outside the state object. *)
Theorem C21_ascon_add cf m b s d bs off :
  blk m b = map Some s -> length s = 40%nat -> pb d <> b -> has m d bs -> (off < 40)%nat -> (off + length bs <= 40)%nat ->
  effect (RefIsap.lib_AddBytes cf 40 (P b 0) d (N.of_nat off) (N.of_nat (length bs))) m b s off (length bs)
         (fun i => N.lxor (nth i s 0) (nth (i - off) bs 0)).
Proof. exact (fun H1 H2 => add_effect cf 40 m b s ltac:(lia) H1 H2 d bs off). Qed.
Print Assumptions C21_ascon_add.
Theorem C21_keccak_add cf m b s d bs off :
  blk m b = map Some s -> length s = 50%nat -> pb d <> b -> has m d bs -> (off < 50)%nat -> (off + length bs <= 50)%nat ->
  effect (RefIsap.lib_AddBytes cf 50 (P b 0) d (N.of_nat off) (N.of_nat (length bs))) m b s off (length bs)
         (fun i => N.lxor (nth i s 0) (nth (i - off) bs 0)).
Proof. exact (fun H1 H2 => add_effect cf 50 m b s ltac:(lia) H1 H2 d bs off). Qed.
Print Assumptions C21_keccak_add.
Theorem C21_ascon_overwrite cf m b s d bs off :
  blk m b = map Some s -> length s = 40%nat -> pb d <> b -> has m d bs -> (off < 40)%nat -> (off + length bs <= 40)%nat ->
  effect (RefIsap.Ascon_OverwriteBytes cf (P b 0) d (N.of_nat off) (N.of_nat (length bs))) m b s off (length bs)
         (fun i => nth (i - off) bs 0).
Proof. exact (ascon_over_effect cf m b s d bs off). Qed.
Print Assumptions C21_ascon_overwrite.
Theorem C21_keccak_overwrite cf m b s d bs off :
  blk m b = map Some s -> length s = 50%nat -> pb d <> b -> has m d bs -> (off < 50)%nat -> (off + length bs <= 50)%nat ->
  effect (RefIsap.KeccakP400_OverwriteBytes cf (P b 0) d (N.of_nat off) (N.of_nat (length bs))) m b s off (length bs)
         (fun i => nth (i - off) bs 0).
Proof. exact (keccak_over_effect cf m b s d bs off). Qed.
Print Assumptions C21_keccak_overwrite.
Theorem C21_keccak_add_byte cf m b s v off :
  blk m b = map Some s -> length s = 50%nat -> (off < 50)%nat ->
  effect (RefIsap.KeccakP400_AddByte cf (P b 0) v (N.of_nat off)) m b s off 1 (fun i => N.lxor (nth i s 0) v).
Proof. exact (add_byte_effect cf m b s v off). Qed.
Print Assumptions C21_keccak_add_byte.
Theorem C21_keccak_zeroes cf m b s n :
  blk m b = map Some s -> length s = 50%nat -> (n <= 50)%nat ->
  effect (RefIsap.KeccakP400_OverwriteWithZeroes cf (P b 0) (N.of_nat n)) m b s 0 n (fun _ => 0).
Proof. exact (zeroes_effect cf m b s n). Qed.
Print Assumptions C21_keccak_zeroes.
Theorem C21_extract cf sz m b s d off n : sz = 40%nat \/ sz = 50%nat ->
  blk m b = map Some s -> length s = sz -> pb d <> b -> room m d n -> (off < sz)%nat -> (off + n <= sz)%nat ->
  runs (RefIsap.lib_ExtractBytes cf (N.of_nat sz) (P b 0) d (N.of_nat off) (N.of_nat n)) m tt
       (putp m d (firstn n (skipn off s))).
Proof. exact (fun Hz H1 H2 => extract_effect cf sz m b s ltac:(lia) H1 H2 d off n). Qed.
Print Assumptions C21_extract.
(* Output may be written over the input. *)
Theorem C21_keccak_extract_add cf m b s inp out off bs :
  blk m b = map Some s -> length s = 50%nat -> (off < 50)%nat -> (off + length bs <= 50)%nat ->
  has m inp bs -> room m out (length bs) -> pb out <> b -> fwd_ok out inp (length bs) ->
  runs (RefIsap.KeccakP400_ExtractAndAddBytes cf (P b 0) inp out (N.of_nat off) (N.of_nat (length bs))) m tt
       (putp m out (xorz bs (skipn off s))).
Proof. exact (extract_add_runs cf m b s inp out off bs). Qed.
Print Assumptions C21_keccak_extract_add.

Example C21_case : exists m b s d bs off,
  blk m b = map Some s /\ length s = 40%nat /\ pb d <> b /\ has m d bs /\ (off < 40)%nat /\ (off + length bs <= 40)%nat /\ bs <> [].
Proof.
  exists [map Some (repeat 7 40); map Some [1; 2; 3]], 0%nat, (repeat 7 40), (P 1 0), [1; 2; 3], 37%nat.
  repeat split; try reflexivity; try discriminate; cbn; try lia. now apply (has_blk0 _ 1 [1; 2; 3]).
Qed.

(* Out of range without wrap-around, assertions compiled in: the call aborts before touching memory. *)
Theorem C21_out_of_range_without_wrap_aborts cf t state data inp off n sz :
  ndebug cf = false -> off + n < 2 ^ 32 -> sz <= off \/ sz < off + n ->
  RefIsap.lib_AddBytes cf sz state data off n t = Abort /\
  RefIsap.lib_ExtractBytes cf sz state data off n t = Abort /\
  (sz = 40 -> RefIsap.Ascon_OverwriteBytes cf state data off n t = Abort) /\
  (sz = 50 -> RefIsap.KeccakP400_OverwriteBytes cf state data off n t = Abort) /\
  (sz = 50 -> RefIsap.KeccakP400_ExtractAndAddBytes cf state inp data off n t = Abort).
Proof. exact (range_aborts cf t state data inp off n sz). Qed.
Print Assumptions C21_out_of_range_without_wrap_aborts.

(* With wrap-around the assertions pass and the call is undefined behaviour: the claim is false of the code. *)
Theorem C21_out_of_range_caught_refuted : exists cf m off n,
  ndebug cf = false /\ off < 2 ^ 32 /\ n < 2 ^ 32 /\ off + n > 50 /\
  blk m 0 = map Some (repeat 7 40) /\ blk m 1 = map Some (repeat 9 50) /\
  (forall t, RefIsap.lib_AddBytes cf 40 (P 0 0) (P 2 0) off n (St m t) = UB) /\
  (forall t, RefIsap.Ascon_OverwriteBytes cf (P 0 0) (P 2 0) off n (St m t) = UB) /\
  (forall t, RefIsap.lib_ExtractBytes cf 40 (P 0 0) (P 2 0) off n (St m t) = UB) /\
  (forall t, RefIsap.lib_AddBytes cf 50 (P 1 0) (P 3 0) off n (St m t) = UB) /\
  (forall t, RefIsap.KeccakP400_OverwriteBytes cf (P 1 0) (P 3 0) off n (St m t) = UB) /\
  (forall t, RefIsap.lib_ExtractBytes cf 50 (P 1 0) (P 3 0) off n (St m t) = UB).
Proof. exact wrap_witness. Qed.
Print Assumptions C21_out_of_range_caught_refuted.

(* ---- C41 ---- *)

(* The twelve initial-value constants of the four builds are pairwise different. *)
Theorem C41_ivs_distinct v v' i j : (i < 3)%nat -> (j < 3)%nat ->
  nth i (ref_consts (v_macros v)) [] = nth j (ref_consts (v_macros v')) [] -> v = v' /\ i = j.
Proof. exact (consts_distinct v v' i j). Qed.
Print Assumptions C41_ivs_distinct.
Theorem C41_ivs_are_specified v i : (i < 3)%nat -> nth i (ref_consts (v_macros v)) [] = iv (v_inst v) (N.of_nat (S i)).
Proof. exact (consts_iv v i). Qed.
Print Assumptions C41_ivs_are_specified.
(* The two functions compute ciphertext and tag from three initial states: nonce or key, followed by the contents of the constant ISAP_IV_A
   (block 0), ISAP_IV_KA (block 1) or ISAP_IV_KE (block 2), followed by zeros ... *)
Theorem C41_encryption_uses_the_ivs v cf mm c clen m ad npub k K Nn A T :
  ref_locals v cf mm -> ref_enc_valid v cf mm c clen m ad npub k K Nn A T ->
  exists m1 C t, runs (ref_encrypt v cf c clen m T ad A npub k) mm 0%Z m1 /\
    length C = length T /\ length t = 16%nat /\ has m1 c (C ++ t) /\
    C = enc_from (v_inst v) (start (v_inst v) K (nth 2 (ref_consts (v_macros v)) [])) Nn T /\
    t = mac_from (v_inst v) (start (v_inst v) Nn (nth 0 (ref_consts (v_macros v)) []))
                            (start (v_inst v) K (nth 1 (ref_consts (v_macros v)) [])) A C.
Proof. exact (starts_used_enc v cf mm c clen m ad npub k K Nn A T). Qed.
Print Assumptions C41_encryption_uses_the_ivs.
Theorem C41_decryption_uses_the_ivs v cf mm m mlen c ad npub k K Nn A C t :
  ref_locals v cf mm -> length t = 16%nat -> ref_dec_valid v cf mm m mlen c ad npub k K Nn A (C ++ t) ->
  exists r m1, runs (ref_decrypt v cf m mlen c (C ++ t) ad A npub k) mm r m1 /\
    (r = 0%Z <-> t = mac_from (v_inst v) (start (v_inst v) Nn (nth 0 (ref_consts (v_macros v)) []))
                                         (start (v_inst v) K (nth 1 (ref_consts (v_macros v)) [])) A C) /\
    (r = 0%Z -> has m1 m (enc_from (v_inst v) (start (v_inst v) K (nth 2 (ref_consts (v_macros v)) [])) Nn C)).
Proof. exact (starts_used_dec v cf mm m mlen c ad npub k K Nn A C t). Qed.
Print Assumptions C41_decryption_uses_the_ivs.
(* ... and these states never coincide, for different uses or instances. *)
Theorem C41_initial_states_distinct v v' i j x y : (i < 3)%nat -> (j < 3)%nat -> length x = 16%nat -> length y = 16%nat ->
  start (v_inst v) x (nth i (ref_consts (v_macros v)) []) = start (v_inst v') y (nth j (ref_consts (v_macros v')) []) ->
  v = v' /\ i = j /\ x = y.
Proof. exact (start_distinct v v' i j x y). Qed.
Print Assumptions C41_initial_states_distinct.

(* ---- C42 ---- *)

(* gen_state is what the ciphertext bytes are computed from ... *)
Theorem C42_keystream_is_gen_state v cf mm c clen m ad npub k K Nn A T :
  ref_locals v cf mm -> ref_enc_valid v cf mm c clen m ad npub k K Nn A T ->
  exists m1, runs (ref_encrypt v cf c clen m T ad A npub k) mm 0%Z m1 /\
    forall i, (i < length T)%nat -> rd1 m1 (padd c (N.of_nat i)) =
      Some (N.lxor (nth i T 0) (nth (i mod i_rate (v_inst v)) (gen_state (v_inst v) K Nn (i / i_rate (v_inst v))) 0)).
Proof. exact (p_keystream v cf _ _ _ (ref_if v cf) mm c clen m ad npub k K Nn A T). Qed.
Print Assumptions C42_keystream_is_gen_state.

(* ... and different nonces give different states at every block index. *)
Theorem C42_states_differ v K Nn Nn' j :
  length K = 16%nat -> length Nn = 16%nat -> length Nn' = 16%nat -> bytes K -> bytes Nn -> bytes Nn' ->
  Nn <> Nn' -> gen_state (v_inst v) K Nn j <> gen_state (v_inst v) K Nn' j.
Proof. exact (fun H1 H2 H3 H4 H5 H6 H7 H8 => H7 (v_gen_inj v K Nn Nn' j H1 H2 H3 H4 H5 H6 H8)). Qed.
Print Assumptions C42_states_differ.

Example C42_case v j : gen_state (v_inst v) ex_K ex_N j <> gen_state (v_inst v) ex_K ex_K j.
Proof. apply C42_states_differ; try reflexivity; try exact ex_bytes_K; try exact ex_bytes_N. discriminate. Qed.
