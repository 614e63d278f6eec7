(* Vocabulary of property C65, over the specification of Keccak-p[400] and ISAP. Definitions only; models no code of /repo. *)
From Verif Require Import Base SpecPerm RefAead VocabOrder.
From Verif Require Spec.
Open Scope N_scope.

(* ISAP-K-128A and ISAP-K-128 with another permutation: Keccak-p[400] between two exchanges of the bytes of every lane. *)
Definition swapped_p (r : nat) (s : list N) : list N := swap_lanes (keccak_p r (swap_lanes s)).
Definition swapped (v : variant) : Spec.inst :=
  match v with
  | K128A => Spec.Inst 50 18 16 1 8 8 swapped_p
  | K128 => Spec.Inst 50 18 20 12 12 12 swapped_p
  | _ => v_inst v
  end.
