(* isapxv20/ref: isap.c is compiled with the prototypes of permutation.h, in which offset, length and nrounds are size_t (6-33), permutation.c defines
   the functions with unsigned int (18-85) without including permutation.h. No proofs. A call through the wrong type is undefined in C; modelled is
   what calling conventions make of it that pass such an argument in a register or in a stack slot of its own: the callee finds the low bits. The
   pointer parameters (permutation.h 4-6 has a pointer to const void for Permutation_Initialize, permutation.c one to void) are represented alike. *)
From Verif Require Import Base Mem Vocab RefIsap RefAead.
Open Scope N_scope.

(* The low w bits of a size_t: what is found in an unsigned int of w bits. *)
Definition low (w x : N) : N := x mod 2 ^ w.
(* permutation.c 18-85, called through permutation.h; w: the width of unsigned int, L: the functions called there. *)
Definition through_header (w : N) (L : plib) : plib :=
  Plib (pl_init L)
       (fun state data offset length => pl_add L state data (low w offset) (low w length))
       (fun state data offset length => pl_over L state data (low w offset) (low w length))
       (fun state nrounds => pl_perm L state (low w nrounds))
       (fun state data offset length => pl_extract L state data (low w offset) (low w length)).
(* isap.c and crypto_aead.c with these functions. *)
Definition proto_impl (w : N) (v : variant) (cf : cfg) : aead := ref_aead (through_header w (v_lib v cf)) (v_macros v) cf.
