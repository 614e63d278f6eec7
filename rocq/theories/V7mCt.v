(* The traces of isapa128av20/bi_32_armv7m. Proofs only. *)
From Verif Require Import Base SpecPerm Words Mem Vocab Vocab2 VocabK MemProof RefProof RefAead SpecFacts Api ApiProof.
From Verif Require Import OptPerm OptRep OptPermProof OptIsap OptProof OptImpl OptGen Trace Ct OptCt ApiCt A128Impl TableCt VocabV7m V7mPerm V7mImpl.
From Verif Require Spec.
Open Scope N_scope.

Lemma v7m_traced cf junk : (forall i, (i < 4)%nat -> al8 cf (P i 0)) -> length junk = 5%nat ->
  enc_traced cf opt_consts (al8_call cf) (opt_impl bi_32_armv7m cf junk) (fun a n => calls_enc Spec.ISAP_A_128A n ++ calls_mac Spec.ISAP_A_128A a n) /\
  dec_traced cf opt_consts (al8_call cf) (opt_impl bi_32_armv7m cf junk) (calls_mac Spec.ISAP_A_128A) (calls_enc Spec.ISAP_A_128A).
Proof.
  intros Hc Hj.
  apply (api_traced_I ISAP_V7M cf opt_consts (al8 cf) (fun p _ => al8 cf p) (fun _ => True) (2 ^ 64) (fun n => n)
    (OptIsap.isap_enc bi_32_armv7m cf junk) (OptIsap.isap_mac bi_32_armv7m cf)).
  - exact (g_enc_ok f_bi32 bi_32_armv7m bi_32_armv6 rounds_used cf v7m_p bi_32_armv6_ok v7m_in v7m_out v7m_tobi stf_v7m wf40_v7m
      used12 used1 used6 Hc junk Hj).
  - exact (g_mac_ok f_bi32 bi_32_armv7m bi_32_armv6 rounds_used cf v7m_p bi_32_armv6_ok v7m_in v7m_out v7m_tobi stf_v7m wf40_v7m
      used12 used1 Hc).
  - exact v7m_mac.
  - exact opt_consts_ne.
  - intros n. lia.
  - intros k npub ad x c n tag G1 G2. change (calls_mac ISAP_V7M x n) with (calls_mac (v_inst A128A) x n).
    rewrite calls_A128A_mac. now apply OptCt.ct_isap_mac.
  - intros k npub m n c G H0. change (calls_enc ISAP_V7M n) with (calls_enc (v_inst A128A) n).
    rewrite calls_A128A_enc by exact H0. now apply OptCt.ct_isap_enc.
  - exact (v7m_impl cf junk Hc Hj).
  - intros mm k npub ad x p q n (H1 & H2 & H3 & H4 & H5) Gx Gn Rad.
    split; [intros b _; exact Logic.I|]. auto 10.
Qed.
