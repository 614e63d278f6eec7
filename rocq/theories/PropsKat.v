(* Property theorems: the test programs of the package (C46, C47). Nothing but statements, each proved by a lemma. *)
From Coq Require Import Ascii String.
From Verif Require Import Base SpecPerm Words Mem Vocab Vocab2 VocabK MemProof RefIsap RefProof RefAead ExLib
  OptPerm OptIsap OptStp OptProof OptImpl OptEx StpEx A128Impl KIsapProof K64Impl KAvxImpl KArmProof KArmImpl AvxAProof AvxAImpl Table Kat
  Genkat VocabKat GenkatProof GenkatImpl GenkatMore.
From Verif Require Spec.
Open Scope N_scope.
Local Notation length := List.length.

(* ---- C46 ---- *)

(* tests/genkat_aead.c with any implementation in the table, started in a memory mm that begins with the constants of the implementation: if the calls
   it makes meet the conditions under which the implementation works (next theorem) and the two unsigned long long variables are aligned, then main
   returns 0, prints no error, and the file it writes is the one determined by the specification of the instance alone. *)
Theorem C46_known_answer_file v cf cs ex X mm : impl_of v cf cs ex X ->
  consts_ok cs mm -> (length cs <= length mm)%nat ->
  aligned cf (P (length mm + 6) 0) 8 = true -> aligned cf (P (length mm + 7) 0) 8 = true -> kat_calls ex (length mm) ->
  runs (genkat_main X cf true) mm (0%Z, Some ("LWC_AEAD_KAT_128_128.txt"%string, kat_file (v_inst v)), ""%string) mm.
Proof. exact (fun HX Hc Hn Al Al' He => table_genkat v cf cs ex X mm HX Hc Hn Al Al' He). Qed.
Print Assumptions C46_known_answer_file.

(* The conditions of the table are met by all these calls: unconditionally for the implementations without alignment requirements, in particular for
   isapk128{,a}v20/opt_64, whose reads beyond the associated data (C30) stay inside the array ad; for the others if local arrays are aligned as
   stated. *)
Theorem C46_conditions n cf UL (loc : nat -> Prop) :
  kat_calls any_call n /\ kat_calls six_more n /\
  (6 <= UL -> kat_calls (avx_lens UL) n /\ kat_calls (fun _ _ _ _ a _ _ t => N.of_nat a < 2 ^ UL /\ N.of_nat t < 2 ^ UL) n) /\
  ((forall b, (n + 8 <= b)%nat -> loc b) -> kat_calls (loc_ext loc) n) /\
  ((forall i, (i < 8)%nat -> al8 cf (P (n + i) 0)) ->
     kat_calls (fun _ k npub ad _ p q _ => al8 cf k /\ al8 cf npub /\ al8 cf ad /\ al8 cf p /\ al8 cf q) n) /\
  (strict cf = false -> kat_calls (arm_call cf) n).
Proof.
  exact (conj (calls_any n) (conj (calls_six n) (conj (fun H => conj (calls_avx UL n H) (calls_ul UL n H)) (conj (calls_loc loc n)
    (conj (calls_al8 cf n) (calls_arm_lax cf n)))))).
Qed.
Print Assumptions C46_conditions.

(* The three STP implementations write the same file as the other implementations of ISAP-A-128A; only the two global variables (blocks 4 and 5)
   may differ afterwards. *)
Theorem C46_known_answer_file_stp a cf junk mm : In a fam_stp -> strict cf = false -> length junk = 5%nat ->
  consts_ok opt_consts mm -> (6 <= length mm)%nat -> (8 <= length (blk mm 4))%nat -> (8 <= length (blk mm 5))%nat ->
  exists m',
    runs (genkat_main (stp_impl a cf junk) cf true) mm (0%Z, Some ("LWC_AEAD_KAT_128_128.txt"%string, kat_file Spec.ISAP_A_128A), ""%string) m' /\
    length m' = length mm /\ forall b, b <> 4%nat -> b <> 5%nat -> blk m' b = blk mm b.
Proof. exact (fun Ia Hs Hj Hc Hn H4 H5 => stp_genkat a cf junk mm Ia Hs Hj Hc Hn H4 H5). Qed.
Print Assumptions C46_known_answer_file_stp.

(* If the file cannot be opened, main says so and returns -1, whatever the implementation. *)
Theorem C46_no_file X cf mm :
  runs (genkat_main X cf false) mm
    ((-1)%Z, None, ("Couldn't open <LWC_AEAD_KAT_128_128.txt> for write" ++ nl ++ "test vector generation failed with code -1" ++ nl)%string) mm.
Proof. exact (genkat_closed mm (fun _ => True) (fun _ => Logic.I) (fun _ _ _ _ _ => Logic.I) X cf). Qed.
Print Assumptions C46_no_file.

(* tests/demo.c prints one entry and returns 0. *)
Theorem C46_demo v cf cs ex X mm : impl_of v cf cs ex X ->
  consts_ok cs mm -> (length cs <= length mm)%nat ->
  aligned cf (P (length mm + 6) 0) 8 = true -> aligned cf (P (length mm + 7) 0) 8 = true -> kat_calls ex (length mm) ->
  runs (demo_main X cf) mm (0%Z, kat_entry (v_inst v) 1 32 32) mm.
Proof. exact (fun HX Hc Hn Al Al' He => table_demo v cf cs ex X mm HX Hc Hn Al Al' He). Qed.
Print Assumptions C46_demo.

(* tests/bulk.c (10000 encryptions into the same buffers) terminates without undefined behaviour and returns 0. *)
Theorem C46_bulk v cf cs ex X mm : impl_of v cf cs ex X -> consts_ok cs mm -> (length cs <= length mm)%nat ->
  aligned cf (P (length mm + 5) 0) 8 = true -> bulk_calls ex (length mm) ->
  runs (bulk_main X) mm 0%Z mm.
Proof. exact (fun HX Hc Hn Al He => bulk_ok v cf cs ex X mm HX Hc Hn Al He). Qed.
Print Assumptions C46_bulk.

(* opt_64 of isapa128av20 and of isapk128v20 on a machine without alignment traps, the reference on one with; and the last entry of the file as it is in the
   repository (crypto_aead/isapa128av20/LWC_AEAD_KAT_128_128.txt). *)
Example ex_C46 : let mm := map (map Some) opt_consts in
  impl_of A128A lax_cf opt_consts any_call (opt_impl opt_64 lax_cf (repeat 0 5)) /\ consts_ok opt_consts mm /\
  aligned lax_cf (P (length mm + 6) 0) 8 = true /\ kat_calls any_call (length mm) /\ bulk_calls any_call (length mm) /\
  kat_calls six_more (length mm) /\ kat_calls (loc_ext (v_loc K128 ex_cf)) (length mm) /\
  aligned ex_cf (P (length mm + 6) 0) 8 = true.
Proof.
  cbv zeta. split; [exact (io_opt opt_64 (repeat 0 5) lax_cf (or_introl eq_refl) eq_refl eq_refl)|].
  split; [intros i Hi; unfold blk; now apply nth_map_lt|]. split; [reflexivity|]. split; [apply calls_any|].
  split; [intros m Hm; exact Logic.I|]. split; [apply calls_six|]. split; [|reflexivity].
  apply calls_loc. intros b _ _. cbn [base ex_cf]. replace (64 * N.of_nat b) with (32 * N.of_nat b * 2) by lia. now apply N.mod_mul.
Qed.
Example ex_C46_entry : kat_entry Spec.ISAP_A_128A 1089 32 32 = ("Count = 1089" ++ nl ++
"Key = 000102030405060708090A0B0C0D0E0F" ++ nl ++
"Nonce = 000102030405060708090A0B0C0D0E0F" ++ nl ++
"PT = 000102030405060708090A0B0C0D0E0F101112131415161718191A1B1C1D1E1F" ++ nl ++
"AD = 000102030405060708090A0B0C0D0E0F101112131415161718191A1B1C1D1E1F" ++ nl ++
"CT = 2CDE28DBBBD9131EBC568D77725B25937CF8EDB8A8F50A2ACEDA356C3CA3D46BAF83B960928F1E4CC975EA24F488202C" ++ nl ++ nl)%string.
Proof.
  unfold kat_entry. change (count_up 16) with (kat_bytes 16). change (count_up 32) with (kat_bytes 32). rewrite kat_isapa128av20_1089.
  vm_compute. reflexivity.
Qed.
Example ex_C46_stp : let mm := map (map Some) stp_blocks in
  In opt_32_stp fam_stp /\ consts_ok opt_consts mm /\ (6 <= length mm)%nat /\ (8 <= length (blk mm 4))%nat /\ (8 <= length (blk mm 5))%nat.
Proof.
  cbv zeta. split; [now left|]. split; [|split; [|split]; repeat constructor].
  intros i Hi. change (length opt_consts) with 4%nat in Hi. destruct i as [|[|[|[|i]]]]; [reflexivity..|lia].
Qed.

(* ---- C47 ---- *)

(* tests/genkat_hash.c with crypto_hash of any directory of crypto_aead_hash/isapa128av20 except bi_32_armv7m: main returns 0 and the file it writes is
   the one determined by the specification of Ascon-Hash. *)
Theorem C47_known_answer_hash_file a cf mm : In a (fam_opt ++ fam_stp) -> (forall i, (i < 4)%nat -> al8 cf (P i 0)) ->
  al8 cf (P (length mm) 0) -> al8 cf (P (length mm + 1) 0) -> consts_ok opt_consts mm -> (4 <= length mm)%nat ->
  runs (genkat_hash_main (OptIsap.crypto_hash a cf) true) mm (0%Z, Some ("LWC_HASH_KAT_256.txt"%string, hash_file Spec.ascon_hash), ""%string) mm.
Proof. exact (fam_genkat_hash a cf mm). Qed.
Print Assumptions C47_known_answer_hash_file.

(* The hypotheses can be met with and without alignment traps; the first entry of the file as it is in the repository
   (crypto_aead_hash/isapa128av20/LWC_HASH_KAT_256.txt). *)
Example ex_C47 : let mm := map (map Some) opt_consts in
  consts_ok opt_consts mm /\ (4 <= length mm)%nat /\ (forall p, al8 lax_cf p) /\ (forall i, al8 strict_cf (P i 0)).
Proof.
  cbv zeta. split; [intros i Hi; unfold blk; now apply nth_map_lt|]. split; [repeat constructor|].
  split; [intros; now apply al8_lax|exact strict_al8].
Qed.
Example ex_C47_entry : hash_entry Spec.ascon_hash 0 = ("Count = 1" ++ nl ++ "Msg = " ++ nl ++
"MD = 7346BC14F036E87AE03D0997913088F5F68411434B3CF8B54FA796A80D251F91" ++ nl ++ nl)%string.
Proof. unfold hash_entry. change (count_up 0) with (kat_bytes 0). rewrite kat_hash_1. vm_compute. reflexivity. Qed.
