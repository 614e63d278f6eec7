(* Property C32: isapk128av20/avx512. impl_kavx junk scr cf: junk gives the contents of the bytes of the state vector that belong to no lane
   (junk_ok: 14 bytes, a different choice for every memory), scr the contents of all other vectors when the permutation starts (vscr_ok).
   strict cf = false: the machine permits misaligned accesses. Only statements: proofs are in KAvxImpl.v and KAvxProof.v. *)
From Verif Require Import Base SpecPerm Mem Vocab Vocab2 RefAead SpecFacts ExLib OptImpl OptEx K64PermProof KAvxPerm KAvxProof K64Impl KAvxImpl.
From Verif Require Spec.
Open Scope N_scope.

(* ---- The hypotheses can be met; nothing is behind the 18 bytes of associated data. ---- *)
Example ex_kavx : junk_ok ex_junk /\ vscr_ok ex_vscr /\ strict lax_cf = false /\ locals no_cond (ex_mem (csK K128A) ex_K ex_N ex_A18 ex_T 35) /\
  enc_valid lax_cf (csK K128A) (ex_mem (csK K128A) ex_K ex_N ex_A18 ex_T 35) (ex_ptr (csK K128A) 4) (ex_ptr (csK K128A) 5)
    (ex_ptr (csK K128A) 3) (ex_ptr (csK K128A) 2) (ex_ptr (csK K128A) 1) (ex_ptr (csK K128A) 0) ex_K ex_N ex_A18 ex_T.
Proof.
  split; [exact ex_junk_ok|]. split; [exact ex_vscr_ok|]. split; [reflexivity|]. split; [intros b _; exact Logic.I|exact (ex18_valid K128A)].
Qed.
Example ex_kavx_perm : k64_r 16 /\ length ex_wide = 64%nat /\ bytes ex_wide /\ ex_wide <> ex_wide' /\ firstn 50 ex_wide = firstn 50 ex_wide'.
Proof.
  split; [right; now left|]. split; [reflexivity|]. split; [unfold ex_wide; repeat constructor; cbn; lia|]. split; [discriminate|reflexivity].
Qed.

Theorem C32_avx512_agrees_with_reference junk scr cf cf' : junk_ok junk -> vscr_ok scr -> strict cf = false ->
  agree cf (csK K128A) no_cond (impl_kavx junk scr cf) cf' (csK K128A) (v_loc K128A cf') (ref_impl K128A cf').
Proof. exact (fun Hj Hr Hs => impls_agree K128A _ _ _ _ _ _ _ _ (kavx_correct junk scr cf Hj Hr Hs) (ref_correct K128A cf')). Qed.
Print Assumptions C32_avx512_agrees_with_reference.

(* It computes ISAP-K-128A and touches no byte outside the buffers (no slack behind ad, m or c is assumed). *)
Theorem C32_avx512_computes_isap junk scr cf : junk_ok junk -> vscr_ok scr -> strict cf = false ->
  impl_ok Spec.ISAP_K_128A cf (csK K128A) no_cond (impl_kavx junk scr cf).
Proof. exact (kavx_correct junk scr cf). Qed.
Print Assumptions C32_avx512_computes_isap.

(* The vectorised permutation: lanes 0-24 of the result depend on lanes 0-24 of the argument only and are Keccak-p[400] of them; neither the
   other registers (scr) nor lanes 25-31 have any influence. *)
Theorem C32_unused_lanes_never_matter scr scr' r s s' : k64_r r ->
  length scr = 353%nat -> Forall (fun w => w < 2 ^ 16) scr -> length scr' = 353%nat -> Forall (fun w => w < 2 ^ 16) scr' ->
  bytes s -> length s = 64%nat -> bytes s' -> length s' = 64%nat -> firstn 50 s = firstn 50 s' ->
  firstn 50 (kavx_perm scr r s) = firstn 50 (kavx_perm scr' r s') /\
  firstn 50 (kavx_perm scr r s) = keccak_p (N.to_nat r) (firstn 50 s).
Proof. exact (kavx_unused scr scr' r s s'). Qed.
Print Assumptions C32_unused_lanes_never_matter.
