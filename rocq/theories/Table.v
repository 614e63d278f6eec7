(* The implementations of /repo/crypto_aead that compute ISAP, with the calls on which they are known to do so. Definitions only.
   The directories isapa128av20/bi_32_armv7m (which does not compute ISAP-A-128A) and the three STP directories (whose decryption compares
   images of the tags) are absent. *)
From Verif Require Import Base SpecPerm Mem Vocab Vocab2 VocabK RefIsap RefAead SpecFacts OptPerm OptIsap OptStp OptProof OptImpl A128Impl KIsapProof K64Impl KAvxImpl KArmImpl
  AvxAProof AvxAImpl.
Open Scope N_scope.

(* impl_of v cf cs ex X: X is (the model of) an implementation of instance v in build configuration cf; cs: contents of its global
   constants; ex: the calls on which the theorems say something. *)
Inductive impl_of : variant -> cfg -> list (list N) -> ext -> aead -> Prop :=
(* {isapa128av20,isapa128v20,isapk128av20,isapk128v20,isapxv20}/ref *)
| io_ref v cf : impl_of v cf (ref_consts (v_macros v)) (loc_ext (v_loc v cf)) (ref_impl v cf)
(* isapa128av20/{opt_64, opt_32, opt_32_compact, opt_32_tiny, bi_32, bi_32_compact, bi_32_armv6, bi_32_armv6m, bi_32_armv6m_compact, bi_8,
   opt_8, opt_8_tiny}, machine permitting misaligned accesses *)
| io_opt a junk cf : In a fam_opt -> length junk = 5%nat -> strict cf = false ->
    impl_of A128A cf opt_consts any_call (opt_impl a cf junk)
(* The same on any machine, buffers and constants at multiples of 8. *)
| io_opt_aligned a junk cf : In a fam_opt -> length junk = 5%nat -> (forall i, (i < 4)%nat -> al8 cf (P i 0)) ->
    impl_of A128A cf opt_consts (fun _ k npub ad _ p q _ => al8 cf k /\ al8 cf npub /\ al8 cf ad /\ al8 cf p /\ al8 cf q)
      (opt_impl a cf junk)
(* isapa128av20/avx_512, unsigned long of UL bits *)
| io_avxa UL cf : UL <= 64 -> strict cf = false -> impl_of A128A cf csA (avx_lens UL) (impl_avxa UL cf)
(* isapa128v20/opt_64 with an unsigned long of 64 bits, or of fewer *)
| io_a64 cf : strict cf = false -> impl_of A128 cf cs128 any_call (impl_a128_64 64 cf)
| io_a64_ul UL cf : UL <= 64 -> strict cf = false ->
    impl_of A128 cf cs128 (fun _ _ _ _ a _ _ n => N.of_nat a < 2 ^ UL /\ N.of_nat n < 2 ^ UL) (impl_a128_64 UL cf)
(* isapa128v20/{opt_32, opt_32_armv67m} *)
| io_a32 cf : strict cf = false -> impl_of A128 cf cs128 any_call (impl_a128_32 cf)
| io_a67 cf : strict cf = false -> impl_of A128 cf cs128 any_call (impl_a128_67 cf)
(* {isapk128v20,isapk128av20}/opt_64 *)
| io_k64 v scr cf : kv v -> scr_ok scr -> strict cf = false -> impl_of v cf (csK v) six_more (impl_k64 v scr cf)
(* isapk128av20/avx512 *)
| io_kavx junk scr cf : junk_ok junk -> vscr_ok scr -> strict cf = false -> impl_of K128A cf (csK K128A) any_call (impl_kavx junk scr cf)
(* {isapk128v20,isapk128av20}/{opt_32_armv6m, opt_32_armv7m} *)
| io_karm v f scr cf : kv v -> regs_ok scr -> impl_of v cf (csK v) (arm_call cf) (impl_karm v f scr cf).

(* All optimised implementations, those left out above included (any model a of asconp.h), with the width in bits of the type in which isap_mac keeps the length of the ciphertext. *)
Definition optimised (cf : cfg) (W : N) (X : aead) : Prop :=
  (W = 64 /\ exists a junk, X = opt_impl a cf junk) \/
  (W = 64 /\ exists a junk, X = stp_impl a cf junk) \/
  (32 <= W <= 64 /\ X = impl_avxa W cf) \/
  (32 <= W <= 64 /\ X = impl_a128_64 W cf) \/
  (W = 64 /\ (X = impl_a128_32 cf \/ X = impl_a128_67 cf)) \/
  (W = 64 /\ exists v scr, X = impl_k64 v scr cf) \/
  (W = 64 /\ exists junk scr, X = impl_kavx junk scr cf) \/
  (W = 32 /\ exists v f scr, X = impl_karm v f scr cf).
