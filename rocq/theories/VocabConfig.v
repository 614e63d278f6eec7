(* Vocabulary of property C64. Definitions only. *)
From Coq Require Import String.
From Verif Require Import Base RefAead ByteOrder.
Open Scope string_scope.

(* The instance named by the definitions: ISAP128 goes before ISAP128A, KECCAKP400 before ASCON. *)
Definition chosen (d : defs) (v : variant) : Prop :=
  match v with
  | K128 => d "ISAP128" <> None /\ d "KECCAKP400" <> None
  | A128 => d "ISAP128" <> None /\ d "KECCAKP400" = None /\ d "ASCON" <> None
  | K128A => d "ISAP128" = None /\ d "ISAP128A" <> None /\ d "KECCAKP400" <> None
  | A128A => d "ISAP128" = None /\ d "ISAP128A" <> None /\ d "KECCAKP400" = None /\ d "ASCON" <> None
  end.
(* The definitions d and x besides. *)
Definition also (x : string) (d : defs) : defs := fun y => if String.eqb x y then Some (Some 1%Z) else d y.
