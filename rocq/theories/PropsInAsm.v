(* C51: the inline assembly of the ARM files under every register assignment that its constraints permit. *)
From Verif Require Import Base SpecPerm OptPerm A128Perm VocabV7m InAsm VocabInAsm InAsmProof.
Open Scope N_scope.

(* bi_32_armv6: whatever registers the compiler picks, the template computes one Ascon round on the state its operands hold, writes no register that
   is not an operand, and keeps the flags. *)
Theorem C51_armv6_any_assignment : forall b m c ws, permitted stmt_armv6 b -> entry stmt_armv6 b m c ws ->
  let m' := arms b (a_text stmt_armv6) m in
  holds b m' (ascon_round c ws) /\ nothing_else stmt_armv6 b m m' /\ flags_kept stmt_armv6 m m'.
Proof. exact armv6_ok. Qed.
Print Assumptions C51_armv6_any_assignment.

(* bi_32_armv7m: the same with the rotated round of C48. *)
Theorem C51_armv7m_any_assignment : forall b m c ws, permitted stmt_armv7m b -> entry stmt_armv7m b m c ws ->
  let m' := arms b (a_text stmt_armv7m) m in
  holds b m' (rot3 (ascon_round c ws)) /\ nothing_else stmt_armv7m b m m' /\ flags_kept stmt_armv7m m m'.
Proof. exact armv7m_ok. Qed.
Print Assumptions C51_armv7m_any_assignment.

(* opt_32_armv67m: the round without its constant, which C code has added before. *)
Theorem C51_armv67m_any_assignment : forall b m ws, permitted stmt_armv67m b -> entry stmt_armv67m b m 0 ws ->
  let m' := arms b (a_text stmt_armv67m) m in
  holds b m' (ascon_round 0 ws) /\ nothing_else stmt_armv67m b m m' /\ flags_kept stmt_armv67m m m'.
Proof. exact armv67m_ok. Qed.
Print Assumptions C51_armv67m_any_assignment.

(* ... and its fourteen outputs take every register there is: none is left for the pointer to the state or a frame pointer. *)
Theorem C51_armv67m_takes_all_registers : forall b r, permitted stmt_armv67m b -> usable r ->
  exists o, In o (map fst (a_outs stmt_armv67m)) /\ b o = Reg r.
Proof. exact takes_all. Qed.
Print Assumptions C51_armv67m_takes_all_registers.

(* bi_32_armv6m, _compact, _stp: the round is right if C_o is an immediate, has a register of its own, or shares that of x4_o. C_e may share any. *)
Theorem C51_armv6m_safe_assignments : forall b m c ws, permitted stmt_armv6m b ->
  (forall o, In o (map fst (a_outs stmt_armv6m)) -> shares b C_o o -> o = x4_o) -> entry stmt_armv6m b m c ws ->
  let m' := arms b (a_text stmt_armv6m) m in
  holds b m' (ascon_round c ws) /\ nothing_else stmt_armv6m b m m'.
Proof. exact armv6m_ok. Qed.
Print Assumptions C51_armv6m_safe_assignments.

(* With both inputs in registers, and not in the same one, an input must share the register of an output: there are thirteen outputs and fourteen
   registers. *)
Theorem C51_armv6m_registers_run_out : forall b r r', permitted stmt_armv6m b -> b C_e = Reg r -> b C_o = Reg r' -> r <> r' ->
  exists o, In o (map fst (a_outs stmt_armv6m)) /\ (shares b C_e o \/ shares b C_o o).
Proof. exact registers_run_out. Qed.
Print Assumptions C51_armv6m_registers_run_out.

(* The constraints permit C_o to share the register of each of the three temporaries ("=l", not "=&l"), and the result is then wrong. *)
Theorem C51_armv6m_assignment_refuted : forall t, In t [tmp0; tmp1; tmp2] ->
  exists b m ws, permitted stmt_armv6m b /\ shares b C_o t /\ entry stmt_armv6m b m 0xf0 ws /\
    ~ holds b (arms b (a_text stmt_armv6m) m) (ascon_round 0xf0 ws).
Proof. exact assignment_wrong. Qed.
Print Assumptions C51_armv6m_assignment_refuted.

(* Under every assignment and for all values of the registers there are flags that the template does not keep (movs), although "cc" is not among the
   clobbers. *)
Theorem C51_armv6m_flags_refuted : forall b g, permitted stmt_armv6m b ->
  exists n z, n && z = false /\ ~ flags_kept stmt_armv6m (Cpu g (n, z)) (arms b (a_text stmt_armv6m) (Cpu g (n, z))).
Proof. exact flags_wrong. Qed.
Print Assumptions C51_armv6m_flags_refuted.

(* Assignments, registers and states that meet the hypotheses. *)
Example C51_armv6_ex : permitted stmt_armv6 (bi stmt_armv6 0xf0) /\ entry stmt_armv6 (bi stmt_armv6 0xf0) (mi stmt_armv6 ws_w) 0xf0 ws_w.
Proof. exact ex_armv6. Qed.
Example C51_armv7m_ex : permitted stmt_armv7m (bi stmt_armv7m 0xf0) /\ entry stmt_armv7m (bi stmt_armv7m 0xf0) (mi stmt_armv7m ws_w) 0xf0 ws_w.
Proof. exact ex_armv7m. Qed.
Example C51_armv67m_ex : permitted stmt_armv67m (bi stmt_armv67m 0) /\ entry stmt_armv67m (bi stmt_armv67m 0) (mi stmt_armv67m ws_w) 0 ws_w.
Proof. exact ex_armv67m. Qed.
Example C51_armv6m_ex : permitted stmt_armv6m (bm 0xf0) /\ entry stmt_armv6m (bm 0xf0) (mw 14 0xf0) 0xf0 ws_w /\ (forall o, shares (bm 0xf0) C_o o -> False).
Proof. exact ex_armv6m. Qed.
(* Both halves of the constant, being equal, in lr, the one register left. *)
Example C51_armv6m_ex_lr : permitted stmt_armv6m (bw 14) /\ entry stmt_armv6m (bw 14) (mw 14 0xf0) 0xf0 ws_w /\
  (forall o, In o (map fst (a_outs stmt_armv6m)) -> shares (bw 14) C_o o -> o = x4_o).
Proof. exact ex_armv6m_lr. Qed.
Example C51_armv6m_ex_two : permitted stmt_armv6m (bw 5) /\ bw 5 C_e = Reg 14 /\ bw 5 C_o = Reg 5 /\ 14%nat <> 5%nat.
Proof. exact ex_two. Qed.
