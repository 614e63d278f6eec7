(* The inline assembly of the ARM files as a compiler sees it: templates with operands, constraints and a clobber list, and a machine that runs a
   template after the compiler has put every operand somewhere. Definitions only. The instruction lists are those of OptPerm.v and A128Perm.v.
   Sources: crypto_aead/isapa128av20/{bi_32_armv6, bi_32_armv7m, bi_32_armv6m, bi_32_armv6m_compact, bi_32_armv6m_stp}/asconp.h,
   crypto_aead/isapa128v20/opt_32_armv67m/asconp.h. Not modelled: instruction encodings (which registers and immediates an instruction can name). *)
From Verif Require Import Base Prog OptPerm A128Perm.
Open Scope N_scope.

(* Constraints of outputs: "+r"/"+l" is read and written, "=r"/"=l" only written, "=&r" written before the inputs are consumed (does not occur);
   low: the letter l, registers r0-r7 in Thumb state. Constraints of inputs: may be a register, may be an immediate. *)
Inductive outc := Plus (low : bool) | Eq (low early : bool).
Record asm := Asm { a_outs : list (nat * outc); a_ins : list (nat * (bool * bool)); a_cc : bool (* "cc" among the clobbers *); a_text : list arm }.

(* bi_32_armv6/asconp.h 98-164 *)
Definition stmt_armv6 : asm := Asm
  [ (x0_e, Plus false); (x0_o, Plus false); (x1_e, Plus false); (x1_o, Plus false); (x2_e, Plus false); (x2_o, Plus false); (x3_e, Plus false);
    (x3_o, Plus false); (x4_e, Plus false); (x4_o, Plus false); (tmp0, Eq false false); (tmp1, Eq false false) ]
  [ (C_e, (false, true)); (C_o, (false, true)) ] false asm_armv6.
(* bi_32_armv7m/asconp.h 101-161 *)
Definition stmt_armv7m : asm := Asm
  [ (x0_e, Plus false); (x0_o, Plus false); (x1_e, Plus false); (x1_o, Plus false); (x2_e, Plus false); (x2_o, Plus false); (x3_e, Plus false);
    (x3_o, Plus false); (x4_e, Plus false); (x4_o, Plus false); (tmp0, Eq false false); (tmp1, Eq false false); (tmp2, Eq false false) ]
  [ (C_e, (false, true)); (C_o, (false, true)) ] false asm_armv7m.
(* bi_32_armv6m/asconp.h 98-243, bi_32_armv6m_compact/asconp.h 98-243, bi_32_armv6m_stp/asconp.h 99-244 *)
Definition stmt_armv6m : asm := Asm
  [ (x0_e, Plus true); (x1_e, Plus true); (x2_e, Plus true); (x3_e, Plus true); (x4_e, Plus true); (x0_o, Plus false); (x1_o, Plus false);
    (x2_o, Plus false); (x3_o, Plus false); (x4_o, Plus false); (tmp0, Eq true false); (tmp1, Eq true false); (tmp2, Eq true false) ]
  [ (C_e, (true, true)); (C_o, (true, true)) ] false asm_armv6m.
(* isapa128v20/opt_32_armv67m/asconp.h 69-134; the round constant is added in C before it. *)
Definition stmt_armv67m : asm := Asm
  [ (x0_e, Plus false); (x1_e, Plus false); (x2_e, Plus false); (x3_e, Plus false); (x4_e, Plus false); (x0_o, Plus false); (x1_o, Plus false);
    (x2_o, Plus false); (x3_o, Plus false); (x4_o, Plus false); (reg0, Eq false false); (reg1, Eq false false); (reg2, Eq false false);
    (reg3, Eq false false) ]
  [] false asm_armv67m.

(* Where the compiler puts an operand. *)
Inductive place := Reg (r : nat) | Imm (v : N).

(* Registers and the flags N and Z. *)
Record cpu := Cpu { rg : nat -> N; fl : bool * bool }.

Section Machine.
  Variable b : nat -> place.

  Definition rd (m : cpu) (o : nat) : N := match b o with Reg r => rg m r | Imm v => v end.
  (* s: the instruction sets the flags. An immediate cannot be a destination. *)
  Definition wr (s : bool) (m : cpu) (o : nat) (v : N) : cpu :=
    match b o with
    | Reg r => Cpu (fun i => if (i =? r)%nat then v else rg m i) (if s then (N.testbit v 31, v =? 0) else fl m)
    | Imm _ => m
    end.
  (* MOV and MOVi stand for movs, the others for eor, and, orr, orn, bic, mvn, ror as written (which in Thumb state without unified syntax may set
     the flags too). *)
  Definition arm1 (m : cpu) (i : arm) : cpu :=
    match i with
    | EOR d a c => wr false m d (N.lxor (rd m a) (rd m c))
    | EORr d a c k => wr false m d (N.lxor (rd m a) (wror 32 (rd m c) k))
    | AND d a c => wr false m d (N.land (rd m a) (rd m c))
    | ORR d a c => wr false m d (N.lor (rd m a) (rd m c))
    | ORN d a c => wr false m d (N.lor (rd m a) (wnot 32 (rd m c)))
    | BIC d a c => wr false m d (N.land (rd m a) (wnot 32 (rd m c)))
    | MVN d a => wr false m d (wnot 32 (rd m a))
    | MOV d a => wr true m d (rd m a)
    | MOVi d k => wr true m d k
    | ROR d a c => wr false m d (wror 32 (rd m a) (rd m c mod 256 mod 32))
    end.
  Definition arms (l : list arm) (m : cpu) : cpu := fold_left arm1 l m.
End Machine.
