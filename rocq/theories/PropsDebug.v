(* Property C56: the build of isapxv20/ref with -DDEBUG=1 computes what the other build computes, and what it prints is true. Only statements:
   proofs are in DebugProof.v. *)
From Coq Require Import Ascii String.
From Verif Require Import Base Mem Vocab RefIsap RefAead SpecFacts VocabKat ExLib Debug DebugProof PropsRef.
From Verif Require Spec.
Import Spec(i_sz).
Open Scope N_scope.

(* The same value is returned and the same bytes are left in memory. *)
Theorem C56_debug_encryption v cf mm c clen m ad npub k K Nn A T :
  ref_locals v cf mm -> ref_enc_valid v cf mm c clen m ad npub k K Nn A T ->
  exists m1, runs (a_enc (ref_impl v cf) c clen m (N.of_nat (length T)) ad (N.of_nat (length A)) npub k) mm 0%Z m1 /\
             runs (a_enc (debug_impl v cf) c clen m (N.of_nat (length T)) ad (N.of_nat (length A)) npub k) mm 0%Z m1.
Proof. exact (debug_same_enc v cf mm c clen m ad npub k K Nn A T). Qed.
Print Assumptions C56_debug_encryption.

Theorem C56_debug_decryption v cf mm m mlen c ad npub k K Nn A Y :
  ref_locals v cf mm -> ref_dec_valid v cf mm m mlen c ad npub k K Nn A Y ->
  exists r m1, runs (a_dec (ref_impl v cf) m mlen c (N.of_nat (length Y)) ad (N.of_nat (length A)) npub k) mm r m1 /\
               runs (a_dec (debug_impl v cf) m mlen c (N.of_nat (length Y)) ad (N.of_nat (length A)) npub k) mm r m1.
Proof. exact (debug_same_dec v cf mm m mlen c ad npub k K Nn A Y). Qed.
Print Assumptions C56_debug_decryption.

(* Each operation does to memory what the operation of the other build does, and the state it prints is the state that this leaves behind
   (in block b). The first line names the operation and its arguments. *)
Theorem C56_prints_initialize v cf m b : length (blk m b) = i_sz (v_inst v) ->
  exists m' s, runs (pl_init (v_lib v cf) (P b 0)) m tt m' /\ blk m' b = map Some s /\
    runs (debug_Initialize (v_lib v cf) (ISAP_STATE_SZ (v_macros v)) (P b 0)) m
         ("   # Initializing state #" ++ eol ++ "     " ++ hex s ++ eol)%string m'.
Proof. exact (pr_init v cf m b). Qed.
Print Assumptions C56_prints_initialize.

Theorem C56_prints_add v cf m b s d bs off :
  blk m b = map Some s -> length s = i_sz (v_inst v) -> pb d <> b -> has m d bs ->
  (off < i_sz (v_inst v))%nat -> (off + length bs <= i_sz (v_inst v))%nat ->
  exists m' s', runs (pl_add (v_lib v cf) (P b 0) d (N.of_nat off) (N.of_nat (length bs))) m tt m' /\ blk m' b = map Some s' /\
    runs (debug_AddBytes (v_lib v cf) (ISAP_STATE_SZ (v_macros v)) (P b 0) d (N.of_nat off) (N.of_nat (length bs))) m
         ("   # Adding " ++ dec (length bs) ++ " bytes starting at state[" ++ dec off ++ "] #" ++ eol ++ "     " ++ hex s' ++ eol)%string m'.
Proof. exact (pr_add v cf m b s d bs off). Qed.
Print Assumptions C56_prints_add.

(* The state may have uninitialised bytes before (isap.c 131-133 overwrites the second part of such a state), but not after: s' is all of it. *)
Theorem C56_prints_overwrite v cf m b d bs off s' :
  length (blk m b) = i_sz (v_inst v) -> pb d <> b -> has m d bs ->
  (off < i_sz (v_inst v))%nat -> (off + length bs <= i_sz (v_inst v))%nat -> splice (blk m b) off (map Some bs) = map Some s' ->
  exists m', runs (pl_over (v_lib v cf) (P b 0) d (N.of_nat off) (N.of_nat (length bs))) m tt m' /\ blk m' b = map Some s' /\
    runs (debug_OverwriteBytes (v_lib v cf) (ISAP_STATE_SZ (v_macros v)) (P b 0) d (N.of_nat off) (N.of_nat (length bs))) m
         ("   # Overwriting " ++ dec (length bs) ++ " bytes starting at state[" ++ dec off ++ "] #" ++ eol ++ "     " ++ hex s' ++ eol)%string m'.
Proof. exact (pr_over v cf m b d bs off s'). Qed.
Print Assumptions C56_prints_overwrite.

Theorem C56_prints_permute v cf m b s r :
  v_loc v cf b -> (r <= match v with A128A | A128 => 12 | K128A | K128 => 20 end)%nat ->
  blk m b = map Some s -> bytes s -> length s = i_sz (v_inst v) ->
  exists m' s', runs (pl_perm (v_lib v cf) (P b 0) (N.of_nat r)) m tt m' /\ blk m' b = map Some s' /\
    runs (debug_Permute_Nrounds (v_lib v cf) (ISAP_STATE_SZ (v_macros v)) (P b 0) (N.of_nat r)) m
         ("   # Permuting " ++ dec r ++ " times #" ++ eol ++ "     " ++ hex s' ++ eol)%string m'.
Proof. exact (pr_perm v cf m b s r). Qed.
Print Assumptions C56_prints_permute.

(* Nothing but the first line. *)
Theorem C56_prints_extract v cf m b s d off k :
  blk m b = map Some s -> length s = i_sz (v_inst v) -> pb d <> b -> room m d k ->
  (off < i_sz (v_inst v))%nat -> (off + k <= i_sz (v_inst v))%nat ->
  exists m', runs (pl_extract (v_lib v cf) (P b 0) d (N.of_nat off) (N.of_nat k)) m tt m' /\
    runs (debug_ExtractBytes (v_lib v cf) (P b 0) d (N.of_nat off) (N.of_nat k)) m
         ("   # Extracting " ++ dec k ++ " bytes starting from state[" ++ dec off ++ "] #" ++ eol)%string m'.
Proof. exact (pr_extract v cf m b s d off k). Qed.
Print Assumptions C56_prints_extract.

(* Valid calls exist (C01_case in PropsRef.v). One line of output: the key is added to the zero state of an Ascon build. *)
Example ex_C56_line :
  exists m', runs (debug_AddBytes (v_lib A128 ex_cf) 40 (P 0 0) (P 1 0) 0 16) [map Some (repeat 0 40); map Some ex_K]
    ("   # Adding 16 bytes starting at state[0] #" ++ eol ++
     "     " ++ hex (ex_K ++ repeat 0 24) ++ eol)%string m'.
Proof.
  eexists. replace (ex_K ++ repeat 0 24) with (RefLib.addat (repeat 0 40) 0 ex_K) by reflexivity.
  apply (d_add _ _ _ _ _ (v_libok A128 ex_cf) [map Some (repeat 0 40); map Some ex_K] 0 (repeat 0 40) (P 1 0) ex_K 0);
    [reflexivity|reflexivity|discriminate|now apply MemProof.has_blk0|cbn; lia|cbn; lia].
Qed.
