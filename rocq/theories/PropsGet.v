(* Property theorems: tests/getcycles.c and tests/bench_all.sh (C53). Nothing but statements, each proved by a lemma. *)
From Coq Require Import Ascii String QArith.
From Verif Require Import Base SpecPerm Words Mem Vocab Vocab2 VocabK RefIsap RefAead ExLib OptPerm OptIsap OptProof OptImpl OptEx K64Impl KArmImpl AvxAProof AvxAImpl Table
  Genkat VocabKat Script VocabScript Getcycles VocabGet GetProof GetPrint.
From Verif Require Spec.
Open Scope N_scope.
Local Notation length := List.length.

(* ---- C53 ---- *)

(* One measurement, for every implementation of the table and each of the seven lengths: no undefined behaviour; the buffer c ends with the
   ciphertext of the random text (no associated data), clen with its length; the result is the number of cycles between the readings, modulo W. *)
Theorem C53_measure v cf cs ex X mm n rnd W clk r mlen : impl_of v cf cs ex X -> consts_ok cs mm -> (length cs <= n)%nat ->
  aligned cf (P (n + 3) 0) 8 = true -> get_calls ex n -> globals n mm -> 0 < W -> forward clk -> In mlen the_lens -> exists m',
  runs (measure W clk (init_aead rnd (P n 0) (P (n + 1) 0) (P (n + 5) 0) (P (n + 4) 0))
    (call_aead X (P (n + 2) 0) (P (n + 3) 0) (P n 0) (P (n + 1) 0) (P (n + 4) 0) (P (n + 5) 0)) r mlen) mm (elapsed clk r mod W) m' /\
  globals n m' /\ rest_same n mm m' /\
  has m' (P (n + 2) 0) (Spec.isap_encrypt (v_inst v) (key_of rnd r) (nonce_of rnd r) [] (text_of rnd r mlen)) /\
  has m' (P (n + 3) 0) (word_le 8 (mlen + 16)).
Proof. exact (aead_measure_out v cf cs ex X mm n rnd W clk r mlen). Qed.
Print Assumptions C53_measure.

(* The conditions of the table are met by these calls. *)
Theorem C53_conditions n cf UL (loc : nat -> Prop) :
  get_calls any_call n /\ get_calls six_more n /\
  (16 <= UL -> get_calls (avx_lens UL) n /\ get_calls (fun _ _ _ _ a _ _ t => N.of_nat a < 2 ^ UL /\ N.of_nat t < 2 ^ UL) n) /\
  ((forall b, (n + 6 <= b)%nat -> loc b) -> get_calls (loc_ext loc) n) /\
  ((forall i, (i < 6)%nat -> al8 cf (P (n + i) 0)) ->
     get_calls (fun _ k npub ad _ p q _ => al8 cf k /\ al8 cf npub /\ al8 cf ad /\ al8 cf p /\ al8 cf q) n) /\
  (strict cf = false -> get_calls (arm_call cf) n).
Proof.
  exact (conj (gcalls_any n) (conj (gcalls_six n) (conj (fun H => conj (gcalls_avx UL n H) (gcalls_ul UL n H)) (conj (gcalls_loc loc n)
    (conj (gcalls_al8 cf n) (gcalls_arm cf n)))))).
Qed.
Print Assumptions C53_conditions.

(* The same with CRYPTO_HASH. *)
Theorem C53_measure_hash a cf mm n rnd W clk r mlen : In a (fam_opt ++ fam_stp) -> (forall i, (i < 4)%nat -> al8 cf (P i 0)) ->
  al8 cf (P n 0) -> al8 cf (P (n + 1) 0) -> consts_ok opt_consts mm -> (4 <= n)%nat -> globals_hash n mm -> 0 < W -> forward clk -> In mlen the_lens ->
  exists m',
  runs (measure W clk (init_hash rnd (P n 0)) (call_hash (OptIsap.crypto_hash a cf) (P (n + 1) 0) (P n 0)) r mlen) mm (elapsed clk r mod W) m' /\
  globals_hash n m' /\ rest_same n mm m' /\ has m' (P (n + 1) 0) (Spec.ascon_hash (hashed_of rnd r mlen)).
Proof.
  exact (fun Ha Hal Ai Ao Hc Hn G HW Hf Hm =>
    hash_measure _ Spec.ascon_hash mm n rnd (fun m t => fam_call a cf mm n m t Ha Hal Ai Ao Hc Hn) W clk r mlen HW Hf G Hm).
Qed.
Print Assumptions C53_measure_hash.

(* The whole program: it ends without undefined behaviour and prints the lines `printed` for the sorted counts of the 7 * 16 measurements. *)
Theorem C53_whole_run v cf cs ex X mm n rnd W clk rne factor qs : impl_of v cf cs ex X -> consts_ok cs mm -> (length cs <= n)%nat ->
  aligned cf (P (n + 3) 0) 8 = true -> get_calls ex n -> globals n mm -> 0 < W -> forward clk -> exists m',
  runs (main rne factor qs W clk (init_aead rnd (P n 0) (P (n + 1) 0) (P (n + 5) 0) (P (n + 4) 0))
    (call_aead X (P (n + 2) 0) (P (n + 3) 0) (P n 0) (P (n + 1) 0) (P (n + 4) 0) (P (n + 5) 0))) mm
    (printed rne factor (map (fun i => qs (map (fun j => elapsed clk (16 * N.of_nat i + N.of_nat j) mod W) (seq 0 16))) (seq 0 7))) m' /\
  rest_same n mm m'.
Proof. exact (fun HX Hc Hn Al He G HW Hf => aead_main v cf cs ex X mm n HX Hc Hn Al He rnd W clk rne factor qs HW Hf G). Qed.
Print Assumptions C53_whole_run.

Theorem C53_whole_run_hash a cf mm n rnd W clk rne factor qs : In a (fam_opt ++ fam_stp) -> (forall i, (i < 4)%nat -> al8 cf (P i 0)) ->
  al8 cf (P n 0) -> al8 cf (P (n + 1) 0) -> consts_ok opt_consts mm -> (4 <= n)%nat -> globals_hash n mm -> 0 < W -> forward clk -> exists m',
  runs (main rne factor qs W clk (init_hash rnd (P n 0)) (call_hash (OptIsap.crypto_hash a cf) (P (n + 1) 0) (P n 0))) mm
    (printed rne factor (map (fun i => qs (map (fun j => elapsed clk (16 * N.of_nat i + N.of_nat j) mod W) (seq 0 16))) (seq 0 7))) m' /\
  rest_same n mm m'.
Proof.
  exact (fun Ha Hal Ai Ao Hc Hn G HW Hf =>
    hash_main _ Spec.ascon_hash mm n rnd (fun m t => fam_call a cf mm n m t Ha Hal Ai Ao Hc Hn) W clk rne factor qs HW Hf G).
Qed.
Print Assumptions C53_whole_run_hash.

(* On x86 (W = 2^64) the count is right for runs below 2^64 cycles. On ARM before and after have 32 bits: wrong for every run of 2^32 cycles and
   more, which is 131072 per call for texts of one byte. *)
Theorem C53_counter_refuted v cf cs ex X mm n rnd clk r mlen : impl_of v cf cs ex X -> consts_ok cs mm -> (length cs <= n)%nat ->
  aligned cf (P (n + 3) 0) 8 = true -> get_calls ex n -> globals n mm -> forward clk -> In mlen the_lens -> 2 ^ 32 <= elapsed clk r -> exists m' x,
  runs (measure (2 ^ 32) clk (init_aead rnd (P n 0) (P (n + 1) 0) (P (n + 5) 0) (P (n + 4) 0))
    (call_aead X (P (n + 2) 0) (P (n + 3) 0) (P n 0) (P (n + 1) 0) (P (n + 4) 0) (P (n + 5) 0)) r mlen) mm x m' /\
  x < elapsed clk r.
Proof. exact (counter_wraps v cf cs ex X mm n rnd clk r mlen). Qed.
Print Assumptions C53_counter_refuted.

(* compare_uint64 makes any correct qsort sort upwards: element 0 is the least count, element 8 the upper median. *)
Theorem C53_min_median qs l : qsort_like compare_uint64 qs -> length l = 16%nat ->
  In (nth 0 (qs l) 0) l /\ (forall x, In x l -> nth 0 (qs l) 0 <= x) /\
  In (nth 8 (qs l) 0) l /\ (9 <= length (filter (fun x => (x <=? nth 8 (qs l) 0)%N) l))%nat /\ (8 <= length (filter (fun x => (nth 8 (qs l) 0 <=? x)%N) l))%nat.
Proof. exact (min_median qs l). Qed.
Print Assumptions C53_min_median.

(* The last line, without the optional argument. c1, ..., clong: the least counts. Every value is rounded up, for the first four lengths to an
   integer, for the others to a tenth: 0.5 and 0.05 are added although printf rounds to nearest. *)
Theorem C53_rounded_up rne c1 c8 c16 c32 c64 c1536 clong l1 l8 l16 l32 l64 l1536 llong : to_double rne ->
  Forall (fun c => fraction c 32768) [c1; c8; c16; c32] -> Forall (fun c => fraction (10 * c) 32768) [c64; clong] -> fraction (10 * c1536) 32256 ->
  last (printed rne 1 [c1 :: l1; c8 :: l8; c16 :: l16; c32 :: l32; c64 :: l64; c1536 :: l1536; clong :: llong]) EmptyString =
  value_line [decN (c1 / 32768 + 1); decN (c8 / 32768 + 1); decN (c16 / 32768 + 1); decN (c32 / 32768 + 1);
    tenths (10 * c64 / 32768 + 1); tenths (10 * c1536 / 32256 + 1); tenths (10 * clong / 32768 + 1)].
Proof. exact (last_ok rne c1 c8 c16 c32 c64 c1536 clong l1 l8 l16 l32 l64 l1536 llong). Qed.
Print Assumptions C53_rounded_up.

(* Refuted: an integer printed is not the nearest one whenever the fraction is below one half. *)
Theorem C53_nearest_refuted rne mlen c l : to_double rne -> In mlen [1; 8; 16; 32] -> c < 2 ^ 38 -> 0 < c mod 32768 < 16384 ->
  exists x, cell rne 1 mlen (c :: l) = pad5 (decN (x + 1)) /\ nearest c 32768 x /\ ~ nearest c 32768 (x + 1).
Proof. exact (cell_not_nearest rne mlen c l). Qed.
Print Assumptions C53_nearest_refuted.

(* Refuted: what bench_all.sh prints as cycles per byte for 64 bytes is the value for 16 bytes, and under 1536 it shows the value for 64 bytes,
   whatever getcycles has measured. (Line bench: first and third use, AEAD and HASH; bench2: second use.) *)
Theorem C53_bench_labels_refuted rne factor what r1 r8 r16 r32 r64 r1536 rlong : exists v16 v64 vlong,
  cell rne factor 16 r16 = pad5 v16 /\ cell rne factor 64 r64 = pad5 v64 /\ cell rne factor 32768 rlong = pad5 vlong /\
  bench what (printed rne factor [r1; r8; r16; r32; r64; r1536; rlong]) = [what ++ "   64: " ++ v16; what ++ " 1536: " ++ v64; what ++ " long: " ++ vlong]%string /\
  bench2 (printed rne factor [r1; r8; r16; r32; r64; r1536; rlong]) = ["AEAD  64: " ++ v16; "AEAD 536: " ++ v64; "AEAD ong: " ++ vlong]%string.
Proof. exact (bench_shows rne factor what r1 r8 r16 r32 r64 r1536 rlong). Qed.
Print Assumptions C53_bench_labels_refuted.
Theorem C53_bench_values_refuted rne what c1 c8 c16 c32 c64 c1536 clong l1 l8 l16 l32 l64 l1536 llong : to_double rne ->
  fraction c16 32768 -> fraction (10 * c64) 32768 -> fraction (10 * clong) 32768 ->
  bench what (printed rne 1 [c1 :: l1; c8 :: l8; c16 :: l16; c32 :: l32; c64 :: l64; c1536 :: l1536; clong :: llong]) =
  [what ++ "   64: " ++ decN (c16 / 32768 + 1); what ++ " 1536: " ++ tenths (10 * c64 / 32768 + 1); what ++ " long: " ++ tenths (10 * clong / 32768 + 1)]%string.
Proof. exact (bench_64 rne what c1 c8 c16 c32 c64 c1536 clong l1 l8 l16 l32 l64 l1536 llong). Qed.
Print Assumptions C53_bench_values_refuted.

(* A memory and an implementation as in the first theorem, a clock, a sort, two roundings, counts. *)
Example ex_C53 : impl_of A128A lax_cf opt_consts any_call (opt_impl opt_64 lax_cf (repeat 0 5)) /\ consts_ok opt_consts get_mem /\
  aligned lax_cf (P (4 + 3) 0) 8 = true /\ globals 4 get_mem /\ forward (fun i => 5000000000 * i) /\ 2 ^ 32 <= elapsed (fun i => 5000000000 * i) 3.
Proof. exact ex_getting. Qed.
Example ex_C53_sort : qsort_like compare_uint64 isort /\ isort [5; 3; 9; 3] = [3; 3; 5; 9].
Proof. exact (conj isort_qsort eq_refl). Qed.
Example ex_C53_double : to_double (fun q => q) /\ to_double down60.
Proof. exact (conj id_double down60_double). Qed.
Example ex_C53_counts : Forall (fun c => fraction c 32768) [9000001; 1000001; 500001; 300001] /\ Forall (fun c => fraction (10 * c) 32768) [200001; 100001] /\
  fraction (10 * 120001) 32256 /\ 0 < 500001 mod 32768 < 16384.
Proof. repeat constructor; vm_compute; discriminate. Qed.
Example ex_C53_line : last (printed (fun q => q) 1 [[9000001]; [1000001]; [500001]; [300001]; [200001]; [120001]; [100001]]) EmptyString =
  "|   275 |    31 |    16 |    10 |   6.2 |   3.8 |   3.1 |"%string.
Proof. vm_compute. reflexivity. Qed.
