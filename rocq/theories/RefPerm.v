(* Model of the permutation kernels of the reference implementation, as straight-line word programs.
   Files (all under /repo/crypto_aead/isapxv20/ref/lib; the per-instance */ref copies contain the same text):
   Ascon-reference/Ascon-reference.c and KeccakP-400-reference/KeccakP-400-reference.c. *)
From Verif Require Import Base Prog.
Open Scope N_scope.
Open Scope prog_scope.

(* ---------- Ascon-reference.c ---------- *)

(* Local variables of Ascon_Permute_Nrounds, lines 64-65. *)
Definition x0 : nat := 0. Definition x1 : nat := 1. Definition x2 : nat := 2.
Definition x3 : nat := 3. Definition x4 : nat := 4.
Definition t0 : nat := 5. Definition t1 : nat := 6. Definition t2 : nat := 7.
Definition t3 : nat := 8. Definition t4 : nat := 9.

(* Ascon-reference.c line 11: #define ROTR(x,n). *)
Definition ROTR (x : exp) (n : N) : exp := Shr x n .| Shl 64 x (64 - n).

(* Ascon-reference.c line 73, round constant of iteration i. *)
Definition ascon_ref_c (i : N) : N := N.lor (N.shiftl (0xf - i) 4) i.
Definition ascon_ref_addc (i : N) : prog := [ x2 ^= K (ascon_ref_c i) ].

(* Ascon-reference.c lines 75-80, substitution layer. *)
Definition ascon_ref_sbox : prog :=
  [ x0 ^= V x4; x4 ^= V x3; x2 ^= V x1;
    t0 ::= V x0; t1 ::= V x1; t2 ::= V x2; t3 ::= V x3; t4 ::= V x4;
    t0 ::= Not 64 t0; t1 ::= Not 64 t1; t2 ::= Not 64 t2; t3 ::= Not 64 t3; t4 ::= Not 64 t4;
    t0 &= V x1; t1 &= V x2; t2 &= V x3; t3 &= V x4; t4 &= V x0;
    x0 ^= V t1; x1 ^= V t2; x2 ^= V t3; x3 ^= V t4; x4 ^= V t0;
    x1 ^= V x0; x0 ^= V x4; x3 ^= V x2; x2 ::= Not 64 x2 ].

(* Ascon-reference.c lines 82-86, linear diffusion layer. *)
Definition ascon_ref_lin : prog :=
  [ x0 ^= ROTR x0 19 .^ ROTR x0 28;
    x1 ^= ROTR x1 61 .^ ROTR x1 39;
    x2 ^= ROTR x2 1 .^ ROTR x2 6;
    x3 ^= ROTR x3 10 .^ ROTR x3 17;
    x4 ^= ROTR x4 7 .^ ROTR x4 41 ].

(* Loop body, lines 72-86. *)
Definition ascon_ref_round (i : N) : prog := ascon_ref_addc i ++ ascon_ref_sbox ++ ascon_ref_lin.

(* Values of i in the loop of lines 62, 71 (unsigned int arithmetic modulo 2^32). *)
Definition count_up (start stop : N) : list N :=
  if start <? stop then map (fun k => start + N.of_nat k) (seq 0 (N.to_nat (stop - start))) else [].
Definition ascon_ref_indices (rounds : N) : list N :=
  let start := (12 + 2 ^ 32 - rounds) mod 2 ^ 32 in
  count_up start ((rounds + start) mod 2 ^ 32).

(* Lines 71-87 on the five words; the t variables are scratch. *)
Definition ascon_ref_words (rounds : N) (ws : list N) : list N :=
  firstn 5 (fold_left (fun e i => run (ascon_ref_round i) e) (ascon_ref_indices rounds) (ws ++ repeat 0 5)).

(* ---------- KeccakP-400-reference.c ---------- *)

(* Line 26: #define index(x, y). *)
Definition kindex (x y : nat) : nat := (x mod 5 + 5 * (y mod 5))%nat.
(* Arrays A[25] (state), C[5], D[5], tempA[25] as variables. *)
Definition kA (i : nat) : nat := i.
Definition kC (x : nat) : nat := (25 + x)%nat.
Definition kD (x : nat) : nat := (30 + x)%nat.
Definition kT (i : nat) : nat := (35 + i)%nat.
Definition five := seq 0 5.
Definition for_xy {A} (f : nat -> nat -> list A) : list A :=
  flat_map (fun x => flat_map (fun y => f x y) five) five.

(* Lines 30-52. *)
Definition KeccakRoundConstants : list N :=
  [0x0001; 0x8082; 0x808a; 0x8000; 0x808b; 0x0001; 0x8081; 0x8009; 0x008a; 0x0088;
   0x8009; 0x000a; 0x808b; 0x008b; 0x8089; 0x8003; 0x8002; 0x0080; 0x800a; 0x000a].
(* Lines 56-59. *)
Definition KeccakRhoOffsets : list N :=
  [0; 1; 14; 12; 11; 4; 12; 6; 7; 4; 3; 10; 11; 9; 7; 9; 13; 15; 5; 8; 2; 2; 13; 8; 14].

(* Line 161: ROL16; operands are promoted to (32-bit) int, the caller truncates to 16 bits on assignment. *)
Definition ROL16 (a : exp) (offset : N) : exp :=
  if offset =? 0 then a else Shl 32 a offset .^ Shr a (16 - offset).

(* Lines 163-178. *)
Definition k_ref_theta : prog :=
  flat_map (fun x => (kC x ::= K 0) :: map (fun y => kC x ^= V (kA (kindex x y))) five) five ++
  map (fun x => kD x ::= Trunc 16 (ROL16 (kC ((x + 1) mod 5)) 1 .^ kC ((x + 4) mod 5))) five ++
  for_xy (fun x y => [kA (kindex x y) ^= V (kD x)]).
(* Lines 180-186. *)
Definition k_ref_rho : prog :=
  for_xy (fun x y => [kA (kindex x y) ::= Trunc 16 (ROL16 (kA (kindex x y)) (nth (kindex x y) KeccakRhoOffsets 0))]).
(* Lines 188-197. *)
Definition k_ref_pi : prog :=
  for_xy (fun x y => [kT (kindex x y) ::= V (kA (kindex x y))]) ++
  for_xy (fun x y => [kA (kindex (0 * x + 1 * y) (2 * x + 3 * y)) ::= V (kT (kindex x y))]).
(* Lines 199-210. *)
Definition k_ref_chi : prog :=
  flat_map (fun y =>
    map (fun x => kC x ::= Trunc 16 (kA (kindex x y) .^ (Not 32 (kA (kindex (x + 1) y)) .& kA (kindex (x + 2) y)))) five ++
    map (fun x => kA (kindex x y) ::= V (kC x)) five) five.
(* Lines 212-215. *)
Definition k_ref_iota (i : N) : prog :=
  [ kA (kindex 0 0) ^= K (nth (N.to_nat i) KeccakRoundConstants 0) ].
(* Lines 152-159. *)
Definition k_ref_round (i : N) : prog :=
  k_ref_theta ++ k_ref_rho ++ k_ref_pi ++ k_ref_chi ++ k_ref_iota i.

(* Lines 145-150: KeccakP400OnWords, unsigned int arithmetic. *)
Definition keccak_ref_indices (rounds : N) : list N := count_up ((20 + 2 ^ 32 - rounds) mod 2 ^ 32) 20.
(* One call of KeccakP400Round; the local arrays C, D, tempA are fresh in every call and are written before
   they are read, so their initial value is irrelevant (taken as 0 here). *)
Definition keccak_ref_round (i : N) (ws : list N) : list N := firstn 25 (run (k_ref_round i) (ws ++ repeat 0 35)).
Definition keccak_ref_words (rounds : N) (ws : list N) : list N :=
  fold_left (fun ws i => keccak_ref_round i ws) (keccak_ref_indices rounds) ws.
