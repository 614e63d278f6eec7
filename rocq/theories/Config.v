(* The choice of an instance in isapxv20/ref: isap.h, permutation.c and the definitions CMakeLists.txt passes to the compiler. No proofs.
   A set of definitions is that of ByteOrder.v. Left out: definitions of other names that occur in the sources, -DNDEBUG (cfg of Mem.v). *)
From Coq Require Import String.
From Verif Require Import Base Mem Vocab RefIsap RefAead Debug ByteOrder.
Open Scope N_scope.
Open Scope string_scope.

(* isap.h 4-96: the parameters. None: isap.c and permutation.c use macros that are not defined. *)
Definition isap_h (d : defs) : option macros :=
  if isdef d "ISAP128" then
    if isdef d "KECCAKP400" then Some (Macros 144 20 12 12 12 50)
    else if isdef d "ASCON" then Some (Macros 64 12 12 12 12 40)
    else None
  else if isdef d "ISAP128A" then
    if isdef d "KECCAKP400" then Some (Macros 144 16 1 8 8 50)
    else if isdef d "ASCON" then Some (Macros 64 12 1 6 12 40)
    else None
  else None.

(* permutation.c 18-85: the #ifdef in each function, in the same order as those of lines 4-8. *)
Definition selected (d : defs) (cf : cfg) : plib :=
  let pick {A : Type} (k a n : A) : A := if isdef d "KECCAKP400" then k else if isdef d "ASCON" then a else n in
  Plib (pick (pl_init (keccak_lib cf)) (pl_init (ascon_lib cf)) (fun _ => ret tt))
       (pick (pl_add (keccak_lib cf)) (pl_add (ascon_lib cf)) (fun _ _ _ _ => ret tt))
       (pick (pl_over (keccak_lib cf)) (pl_over (ascon_lib cf)) (fun _ _ _ _ => ret tt))
       (pick (pl_perm (keccak_lib cf)) (pl_perm (ascon_lib cf)) (fun _ _ => ret tt))
       (pick (pl_extract (keccak_lib cf)) (pl_extract (ascon_lib cf)) (fun _ _ _ _ => ret tt)).
(* if(DEBUG) in permutation.c; print_state uses ISAP_STATE_SZ. None: it does not compile. *)
Definition permutation_c (d : defs) (cf : cfg) : option plib :=
  match isap_h d, d "DEBUG" with
  | Some mc, Some (Some z) => Some (if (z =? 0)%Z then selected d cf else debug_lib (selected d cf) (ISAP_STATE_SZ mc))
  | _, _ => None
  end.

(* CMakeLists.txt 34-43: the library. *)
Definition compile (d : defs) (cf : cfg) : option aead :=
  match isap_h d, permutation_c d cf with
  | Some mc, Some L => Some (ref_aead L mc cf)
  | _, _ => None
  end.

(* CMakeLists.txt 8-23 and 30 as shipped. *)
Definition cmake_lists : list (string * Z) := [("ISAP128", 1%Z); ("KECCAKP400", 1%Z); ("DEBUG", 0%Z); ("NDEBUG", 1%Z)].
