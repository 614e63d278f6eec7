(* The reference implementation with a measuring device on its permutation: whenever the permutation is called, a value computed from the whole
   state is recorded before the permutation runs. isap.c and crypto_aead.c are those of RefIsap.v; only the library function that permutes is
   replaced. The device is not part of /repo: it makes the states on which crypto_aead.c 4-60 and isap.c 15-147 call the permutation visible. *)
From Verif Require Import Base Mem Vocab RefIsap RefAead.
Open Scope N_scope.
Open Scope cm_scope.

(* The library L (KeccakP-400-reference.c 145-159 or Ascon-reference.c 60-93) with the device `leak` on a state of SZ bytes. The recorded value
   appears in the trace just before the call itself. *)
Definition probed (SZ : nat) (leak : list N -> N) (L : plib) : plib :=
  Plib (pl_init L) (pl_add L) (pl_over L)
       (fun state r => x <- loads_ SZ state ;; emit (EPerm (leak x)) ;; pl_perm L state r)
       (pl_extract L).

(* One build of the reference implementation with the device. *)
Definition probed_ref (v : variant) (leak : list N -> N) (cf : cfg) : aead :=
  ref_aead (probed (N.to_nat (ISAP_STATE_SZ (v_macros v))) leak (v_lib v cf)) (v_macros v) cf.
