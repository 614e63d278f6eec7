(* Vocabulary of property C58. Definitions only. *)
From Verif Require Import Base SpecPerm Mem Vocab Vocab2 OptPerm OptIsap.
Open Scope N_scope.

(* The five words an implementation with the conversions of `a` holds for the 40-byte state s: the bytes are read as five little-endian 64-bit
   words, and each goes through U64TOWORD. *)
Definition held (a : asconp) (s : list N) : state := map (U64TOWORD a) (map le_word (chunks 8 s)).

(* Where the machine traps misaligned accesses, the constants and the buffers ps are 8-byte aligned. *)
Definition all_al8 (cf : cfg) (ps : list ptr) : Prop := (forall i, (i < 4)%nat -> al8 cf (P i 0)) /\ Forall (al8 cf) ps.
