(* Vocabulary of the theorems on inline assembly: what the constraints of an asm statement permit a compiler, and what the statement must do.
   Definitions only; models no particular file of /repo. Contract as in the GCC manual, "Extended Asm". *)
From Verif Require Import Base SpecPerm OptPerm InAsm.
Open Scope N_scope.

(* Registers that can hold operands: r0-r12 and r14. *)
Definition usable (r : nat) : Prop := (r < 13 \/ r = 14)%nat.
Definition low_of (c : outc) : bool := match c with Plus l => l | Eq l _ => l end.
Definition early_of (c : outc) : bool := match c with Plus _ => false | Eq _ e => e end.

(* Every output has a register of its own. An input has an immediate or a register, as its constraint says; this may be the register of an output
   that is not marked as early-clobbered. (If that output is also read, the two must have the same value on entry, which entry below implies.) *)
Definition permitted (A : asm) (b : nat -> place) : Prop :=
  (forall o c, In (o, c) (a_outs A) -> exists r, b o = Reg r /\ usable r /\ (low_of c = true -> (r < 8)%nat)) /\
  (forall o c o' c', In (o, c) (a_outs A) -> In (o', c') (a_outs A) -> b o = b o' -> o = o') /\
  (forall i regs imms, In (i, (regs, imms)) (a_ins A) ->
     match b i with
     | Imm _ => imms = true
     | Reg r => regs = true /\ usable r /\ forall o c, In (o, c) (a_outs A) -> b o = Reg r -> early_of c = false
     end).

(* The bits at even and at odd positions of a 64-bit word. *)
Definition evens (x : N) : N := mkword 32 (fun j => bit x (2 * j)).
Definition odds (x : N) : N := mkword 32 (fun j => bit x (2 * j + 1)).
(* The operands hold the state ws, five 64-bit words in bit-interleaved form. *)
Definition holds (b : nat -> place) (m : cpu) (ws : list N) : Prop :=
  rd b m x0_e = evens (nth 0 ws 0) /\ rd b m x0_o = odds (nth 0 ws 0) /\ rd b m x1_e = evens (nth 1 ws 0) /\ rd b m x1_o = odds (nth 1 ws 0) /\
  rd b m x2_e = evens (nth 2 ws 0) /\ rd b m x2_o = odds (nth 2 ws 0) /\ rd b m x3_e = evens (nth 3 ws 0) /\ rd b m x3_o = odds (nth 3 ws 0) /\
  rd b m x4_e = evens (nth 4 ws 0) /\ rd b m x4_o = odds (nth 4 ws 0).
(* ... and the inputs the round constant c, if the statement has them. *)
Definition entry (A : asm) (b : nat -> place) (m : cpu) (c : N) (ws : list N) : Prop :=
  length ws = 5%nat /\ Forall (fun w => w < 2 ^ 64) ws /\ c < 256 /\ holds b m ws /\
  match a_ins A with [] => c = 0 | _ => rd b m C_e = evens c /\ rd b m C_o = odds c end.

(* Nothing but the output operands changes: no other register, and no flags unless "cc" is declared. *)
Definition nothing_else (A : asm) (b : nat -> place) (m m' : cpu) : Prop :=
  forall r, (forall o c, In (o, c) (a_outs A) -> b o <> Reg r) -> rg m' r = rg m r.
Definition flags_kept (A : asm) (m m' : cpu) : Prop := a_cc A = false -> fl m' = fl m.
(* Input i shares its register with output o. *)
Definition shares (b : nat -> place) (i o : nat) : Prop := exists r, b i = Reg r /\ b o = Reg r.
