(* KeccakP-400-reference.c lines 107-215 access by access: the lanes are read and written in the state itself, the arrays C, D, tempA are
   uninitialised local objects (RefIsap.v has the same functions on words, with one access to every lane before and after the rounds).
   Definitions only. Little-endian branch. Operands of one expression are read from left to right. The constant tables KeccakRoundConstants and
   KeccakRhoOffsets are values; an index outside of them is undefined. *)
From Verif Require Import Base Prog SpecPerm Words Mem Vocab RefPerm.
From Verif Require Import RefIsap.
Open Scope N_scope.
Open Scope cm_scope.

(* A local array of n lanes, line 22. *)
Definition with_lanes {A} (n : nat) (f : ptr -> M A) : M A := with_block (2 * n) f.
(* Read of a constant table. *)
Definition table (t : list N) (i : N) : M N := match nth_error t (N.to_nat i) with Some v => ret v | None => fail_ub end.
(* Line 26. *)
Definition index (x y : N) : N := (x mod 5) + 5 * (y mod 5).

Section KMem.
  Variable cf : cfg.

  (* A[i] as a value and A[i] = v, with A of type tKeccakLane *. *)
  Definition get (A : ptr) (i : N) : M N := b <- loadn cf 2 (padd A (2 * i)) ;; ret (le_word b).
  Definition set (A : ptr) (i v : N) : M unit := storen cf (word_le 2 (v mod 2 ^ 16)) (padd A (2 * i)).

  (* Line 161: the macro evaluates its first argument twice. The lane is promoted to int before it is shifted to the left: a result of 2^31 or
     more would be undefined. *)
  Definition ROL16 (a : M N) (offset : N) : M N :=
    if_ (negb (offset =? 0))
        (p <- a ;; q <- a ;;
         if p * 2 ^ offset <? 2 ^ 31 then ret (N.lxor (wshl 32 p offset) (N.shiftr q (16 - offset))) else fail_ub)
        a.

  (* Lines 163-178. *)
  Definition theta (A : ptr) : M unit :=
    with_lanes 5 (fun C => with_lanes 5 (fun D =>
      for_ 0 5 (fun x _ =>
        set C x 0 ;;
        for_ 0 5 (fun y _ => c <- get C x ;; a <- get A (index x y) ;; set C x (N.lxor c a)) tt) tt ;;
      for_ 0 5 (fun x _ =>
        r <- ROL16 (get C ((x + 1) mod 5)) 1 ;; c <- get C ((x + 4) mod 5) ;; set D x (N.lxor r c)) tt ;;
      for_ 0 5 (fun x _ =>
        for_ 0 5 (fun y _ => a <- get A (index x y) ;; d <- get D x ;; set A (index x y) (N.lxor a d)) tt) tt)).

  (* Lines 180-186. *)
  Definition rho (A : ptr) : M unit :=
    for_ 0 5 (fun x _ =>
      for_ 0 5 (fun y _ =>
        o <- table KeccakRhoOffsets (index x y) ;;
        r <- ROL16 (get A (index x y)) o ;; set A (index x y) r) tt) tt.

  (* Lines 188-197. *)
  Definition pi (A : ptr) : M unit :=
    with_lanes 25 (fun tempA =>
      for_ 0 5 (fun x _ => for_ 0 5 (fun y _ => a <- get A (index x y) ;; set tempA (index x y) a) tt) tt ;;
      for_ 0 5 (fun x _ =>
        for_ 0 5 (fun y _ => t <- get tempA (index x y) ;; set A (index (0 * x + 1 * y) (2 * x + 3 * y)) t) tt) tt).

  (* Lines 199-210. *)
  Definition chi (A : ptr) : M unit :=
    with_lanes 5 (fun C =>
      for_ 0 5 (fun y _ =>
        for_ 0 5 (fun x _ =>
          a <- get A (index x y) ;; b <- get A (index (x + 1) y) ;; c <- get A (index (x + 2) y) ;;
          set C x (N.lxor a (N.land (wnot 32 b) c))) tt ;;
        for_ 0 5 (fun x _ => c <- get C x ;; set A (index x y) c) tt) tt).

  (* Lines 212-215. *)
  Definition iota (A : ptr) (indexRound : N) : M unit :=
    a <- get A (index 0 0) ;; k <- table KeccakRoundConstants indexRound ;; set A (index 0 0) (N.lxor a k).

  (* Lines 152-159. *)
  Definition KeccakP400Round (state : ptr) (indexRound : N) : M unit :=
    theta state ;; rho state ;; pi state ;; chi state ;; iota state indexRound.
  (* Lines 145-150. *)
  Definition KeccakP400OnWords (state : ptr) (nrRounds : N) : M unit :=
    for_ ((20 + 2 ^ 32 - nrRounds) mod 2 ^ 32) 20 (fun i _ => KeccakP400Round state i) tt.
  (* Lines 115-128 and 130-143. *)
  Definition Permute_Nrounds (state : ptr) (nrounds : N) : M unit := KeccakP400OnWords state nrounds.
  Definition Permute_20rounds (state : ptr) : M unit := KeccakP400OnWords state 20.
End KMem.

(* The library of RefIsap.v with this permutation; the event EPerm marks the call, as there. *)
Definition mem_lib (cf : cfg) : plib :=
  Plib (lib_Initialize 50) (lib_AddBytes cf 50) (KeccakP400_OverwriteBytes cf) (fun s r => emit (EPerm r) ;; Permute_Nrounds cf s r)
       (lib_ExtractBytes cf 50).
(* crypto_aead.c of isapk128av20/ref, isapk128v20/ref and of the Keccak builds of isapxv20/ref over it. *)
Definition mem_impl (mc : macros) (cf : cfg) : aead := Aead (crypto_aead_encrypt (mem_lib cf) mc cf) (crypto_aead_decrypt (mem_lib cf) mc cf).
