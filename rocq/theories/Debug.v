(* The build of isapxv20/ref with -DDEBUG=1 (CMakeLists.txt 23, README.md line 3): permutation.c prints every operation and the state after it.
   Definitions only. isap.c and crypto_aead.c are those of RefIsap.v, which has the build with -DDEBUG=0.
   What is printed is the value of the operation; isap.c and crypto_aead.c do not look at it (printf's result is discarded), so debug_lib drops it.
   Simplified: writing to stdout succeeds and touches no object of the program. *)
From Coq Require Import Ascii String.
From Verif Require Import Base Mem Vocab RefIsap RefAead Genkat.
Open Scope N_scope.
Open Scope cm_scope.

Section Debug.
  Variables (L : plib) (STATE_SZ : N).

  (* permutation.c 10-16 *)
  Definition print_state (state : ptr) : M string :=
    out <- for_ 0 STATE_SZ (fun i out => v <- load (padd state i) ;; ret (out ++ fmt_02X v)%string) "     "%string ;;
    ret (out ++ nl)%string.

  (* permutation.c 18-28 *)
  Definition debug_Initialize (state : ptr) : M string :=
    let out := ("   # Initializing state #" ++ nl)%string in
    pl_init L state ;;
    s <- print_state state ;; ret (out ++ s)%string.
  (* permutation.c 30-43 *)
  Definition debug_AddBytes (state data : ptr) (offset length : N) : M string :=
    let out := ("   # Adding " ++ fmt_llu length ++ " bytes starting at state[" ++ fmt_llu offset ++ "] #" ++ nl)%string in
    pl_add L state data offset length ;;
    s <- print_state state ;; ret (out ++ s)%string.
  (* permutation.c 45-58 *)
  Definition debug_OverwriteBytes (state data : ptr) (offset length : N) : M string :=
    let out := ("   # Overwriting " ++ fmt_llu length ++ " bytes starting at state[" ++ fmt_llu offset ++ "] #" ++ nl)%string in
    pl_over L state data offset length ;;
    s <- print_state state ;; ret (out ++ s)%string.
  (* permutation.c 60-71 *)
  Definition debug_Permute_Nrounds (state : ptr) (nrounds : N) : M string :=
    let out := ("   # Permuting " ++ fmt_llu nrounds ++ " times #" ++ nl)%string in
    pl_perm L state nrounds ;;
    s <- print_state state ;; ret (out ++ s)%string.
  (* permutation.c 73-85: here the state is not printed *)
  Definition debug_ExtractBytes (state data : ptr) (offset length : N) : M string :=
    let out := ("   # Extracting " ++ fmt_llu length ++ " bytes starting from state[" ++ fmt_llu offset ++ "] #" ++ nl)%string in
    pl_extract L state data offset length ;;
    ret out.

  (* The functions as isap.c calls them. *)
  Definition debug_lib : plib :=
    Plib (fun state => _ <- debug_Initialize state ;; ret tt)
         (fun state data offset length => _ <- debug_AddBytes state data offset length ;; ret tt)
         (fun state data offset length => _ <- debug_OverwriteBytes state data offset length ;; ret tt)
         (fun state nrounds => _ <- debug_Permute_Nrounds state nrounds ;; ret tt)
         (fun state data offset length => _ <- debug_ExtractBytes state data offset length ;; ret tt).
End Debug.

(* One build with -DDEBUG=1. *)
Definition debug_impl (v : variant) (cf : cfg) : aead :=
  ref_aead (debug_lib (v_lib v cf) (ISAP_STATE_SZ (v_macros v))) (v_macros v) cf.
