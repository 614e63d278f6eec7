(* Vocabulary of property C55. Definitions only; models no particular file of /repo. *)
From Coq Require Import Ascii String.
From Verif Require Import Base Script VocabScript Timeall.
Open Scope string_scope.

(* A time as bash prints it, 0m1.234s say: one word. *)
Fixpoint one_word (s : string) : bool := match s with EmptyString => true | String c s => negb (blank c) && one_word s end.
Definition timed (t : timing) : Prop :=
  forall s, In s [t_real t; t_user t; t_sys t] -> s <> EmptyString /\ one_word s = true.

(* Standard output with the given line below every directory. *)
Definition time_output (f : string -> string) : list string :=
  (["#################"; "#      AEAD     #"; "#################"] ++ flat_map (fun d => [d; f d]) named1)%list.
