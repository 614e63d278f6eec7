(* The Keccak instances of isapxv20/ref (also isapk128av20/ref and isapk128v20/ref) compiled for a big-endian machine whose byte order brg_endian.h
   takes for little-endian (C63). No proofs. Everything but the 16-bit accesses to the lanes works on single bytes, so that the rest is the model of
   RefIsap.v; the one simplification is that the 8 bytes of *clen and *mlen are written and read in little-endian order as there, which only the
   caller could notice who looks at them bytewise. *)
From Verif Require Import Base SpecPerm Words RefPerm Mem Vocab RefIsap RefAead.
Open Scope N_scope.

(* The lanes of the state as big-endian 16-bit objects: KeccakP-400-reference.c 122, the cast to tKeccakLane *. *)
Fixpoint be_load_lanes (cf : cfg) (n : nat) (p : ptr) : M (list N) :=
  match n with
  | O => ret []
  | S n' => b <- loadn cf 2 p ;; ws <- be_load_lanes cf n' (padd p 2) ;; ret (be_word b :: ws)
  end.
Fixpoint be_store_lanes (cf : cfg) (ws : list N) (p : ptr) : M unit :=
  match ws with
  | [] => ret tt
  | w :: ws' => storen cf (word_be 2 w) p ;; be_store_lanes cf ws' (padd p 2)
  end.
(* KeccakP-400-reference.c 115-128 (the branch without conversion), 145-159; simplified as KeccakP400_Permute_Nrounds of RefIsap.v: lanes are read once
   before the rounds and written once after them. *)
Definition be_Permute_Nrounds (cf : cfg) (state : ptr) (nrounds : N) : M unit :=
  emit (EPerm nrounds) ;;
  ws <- be_load_lanes cf 25 state ;;
  be_store_lanes cf (keccak_ref_words nrounds ws) state.
(* permutation.c with KECCAKP400. *)
Definition be_lib (cf : cfg) : plib :=
  Plib (lib_Initialize 50) (lib_AddBytes cf 50) (KeccakP400_OverwriteBytes cf) (be_Permute_Nrounds cf) (lib_ExtractBytes cf 50).
(* crypto_aead.c with that library. v: K128A (isapk128av20) or K128 (isapk128v20). *)
Definition be_impl (v : variant) (cf : cfg) : aead := ref_aead (be_lib cf) (v_macros v) cf.
