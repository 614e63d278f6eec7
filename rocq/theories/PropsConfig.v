(* Property C64: the instance built from isapxv20/ref. d: the definitions given to the compiler. Only statements: proofs are in ConfigProof.v. *)
From Coq Require Import String.
From Verif Require Import Base Mem Vocab RefIsap RefAead SpecFacts ExLib OptEx ByteOrder VocabOrder Config VocabConfig ConfigProof.
From Verif Require Spec.
Open Scope N_scope.
Open Scope string_scope.

(* When the library cannot be compiled. *)
Theorem C64_compiles d cf : compile d cf = None <->
  (d "ISAP128" = None /\ d "ISAP128A" = None) \/ (d "KECCAKP400" = None /\ d "ASCON" = None) \/ (forall z, d "DEBUG" <> Some (Some z)).
Proof. exact (compiles d cf). Qed.
Print Assumptions C64_compiles.

(* Otherwise the definitions choose exactly one instance... *)
Theorem C64_one_instance d cf X : compile d cf = Some X -> exists v, chosen d v /\ forall w, chosen d w -> w = v.
Proof. exact (some_chosen d cf X). Qed.
Print Assumptions C64_one_instance.

(* ... and the program computes it: parameters, state size and permutation belong together, whatever else is defined. *)
Theorem C64_encryption d v cf X mm c clen m ad npub k K Nn A T : chosen d v -> compile d cf = Some X ->
  ref_locals v cf mm -> ref_enc_valid v cf mm c clen m ad npub k K Nn A T ->
  exists m1, runs (a_enc X c clen m (N.of_nat (length T)) ad (N.of_nat (length A)) npub k) mm 0%Z m1 /\
    has m1 c (Spec.isap_encrypt (v_inst v) K Nn A T) /\ length (Spec.isap_encrypt (v_inst v) K Nn A T) = (length T + 16)%nat.
Proof. exact (config_enc d v cf X mm c clen m ad npub k K Nn A T). Qed.
Print Assumptions C64_encryption.

Theorem C64_decryption d v cf X mm m mlen c ad npub k K Nn A C t : chosen d v -> compile d cf = Some X ->
  ref_locals v cf mm -> length t = 16%nat -> ref_dec_valid v cf mm m mlen c ad npub k K Nn A (C ++ t)%list ->
  exists r m1, runs (a_dec X m mlen c (N.of_nat (length (C ++ t)%list)) ad (N.of_nat (length A)) npub k) mm r m1 /\
    (r = 0%Z \/ r = (-1)%Z) /\ (r = 0%Z <-> t = Spec.isap_mac (v_inst v) K Nn A C) /\
    (r = 0%Z -> has m1 m (Spec.isap_enc (v_inst v) K Nn C) /\ length (Spec.isap_enc (v_inst v) K Nn C) = length C).
Proof. exact (config_dec d v cf X mm m mlen c ad npub k K Nn A C t). Qed.
Print Assumptions C64_decryption.

(* Refuted: asking for an instance gives it. Definitions added to others without removing them are ignored without a message. *)
Theorem C64_request_refuted d cf x y : (x, y) = ("ISAP128", "ISAP128A") \/ (x, y) = ("KECCAKP400", "ASCON") -> d x <> None ->
  compile (also y d) cf = compile d cf.
Proof. exact (added d cf x y). Qed.
Print Assumptions C64_request_refuted.

(* ---- The hypotheses can be met. ---- *)

(* CMakeLists.txt as shipped builds ISAP-K-128, also after uncommenting the two other lines. *)
Example C64_shipped cf : chosen (only cmake_lists) K128 /\ compile (only cmake_lists) cf = Some (ref_impl K128 cf) /\
  compile (also "ASCON" (also "ISAP128A" (only cmake_lists))) cf = Some (ref_impl K128 cf).
Proof. split; [split; discriminate|]. split; reflexivity. Qed.
(* Definitions for each instance. *)
Example C64_each_instance v cf : exists d, chosen d v /\ compile d cf = Some (ref_impl v cf).
Proof.
  destruct v;
    [exists (only [("ISAP128A", 1%Z); ("ASCON", 1%Z); ("DEBUG", 0%Z)])|exists (only [("ISAP128A", 1%Z); ("KECCAKP400", 1%Z); ("DEBUG", 0%Z)])|
     exists (only [("ISAP128", 1%Z); ("ASCON", 1%Z); ("DEBUG", 0%Z)])|exists (only [("ISAP128", 1%Z); ("KECCAKP400", 1%Z); ("DEBUG", 0%Z)])];
    (split; [cbn; repeat split; (discriminate || reflexivity)|reflexivity]).
Qed.
(* A valid call of each. *)
Example C64_call v : exists mm c clen m ad npub k,
  ref_locals v ex_cf mm /\ ref_enc_valid v ex_cf mm c clen m ad npub k ex_K ex_N ex_A ex_T.
Proof.
  eexists _, _, _, _, _, _, _. split.
  2:{ apply (ex_enc_valid ex_cf (ref_consts (v_macros v)) ex_K ex_N ex_A ex_T); auto using ex_bytes_K, ex_bytes_N, ex_bytes_A, ex_bytes_T; try reflexivity. }
  intros b _. destruct v; cbn [v_loc ex_cf base]; auto; intros _; lia.
Qed.
