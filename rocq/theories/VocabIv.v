(* Vocabulary of property C41: ISAP computed from given initial states of its three sponges. Definitions only; models no particular file
   of /repo. *)
From Verif Require Import Base SpecPerm Spec.
Open Scope N_scope.

(* Key or nonce, initial value, zeros. *)
Definition start (I : inst) (x ini : list N) : list N := x ++ ini ++ repeat 0 (i_sz I - 24).

(* Re-keying, MAC and encryption in terms of the states to which the first permutations are applied. *)
Definition rk_from (I : inst) (s0 Y : list N) (z : nat) : list N :=
  firstn z (rk_absorb I (i_perm I (i_sK I) s0) (msb_bits Y)).
Definition mac_from (I : inst) (s0 sK A C : list N) : list N :=
  let s := dom_sep I (absorb I (i_perm I (i_sH I) s0) (chunks (i_rate I) (pad (i_rate I) A))) in
  let s := absorb I s (chunks (i_rate I) (pad (i_rate I) C)) in
  firstn 16 (i_perm I (i_sH I) (rk_from I sK (firstn 16 s) 16 ++ skipn 16 s)).
Definition enc_from (I : inst) (sK Nn T : list N) : list N :=
  enc_blocks I (rk_from I sK Nn (i_sz I - 16) ++ Nn) (chunks (i_rate I) T).
