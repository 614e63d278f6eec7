(* More vocabulary of the theorem statements: addresses. Definitions only; models no particular file of /repo. *)
From Verif Require Import Base SpecPerm Mem.
Open Scope N_scope.

(* The address of the byte at p. *)
Definition addr (cf : cfg) (p : ptr) : N := base cf (pb p) + po p.
(* The given pointers, the first three blocks (the constants of the implementations) and all blocks in which local arrays may be placed are at
   addresses divisible by 8. *)
Definition all8 (cf : cfg) (mm : mem) (ps : list ptr) : Prop :=
  (forall b, (b < 3)%nat \/ (length mm <= b)%nat -> base cf b mod 8 = 0) /\ Forall (fun p => addr cf p mod 8 = 0) ps.
