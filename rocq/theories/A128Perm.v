(* Model of the Ascon permutations and lane conversions of the optimised ISAP-A-128 implementations in /repo/crypto_aead/isapa128v20:
   opt_64 (isap.c), opt_32 and opt_32_armv67m (asconp.h), in the vocabulary of OptPerm.v. No proofs.
   A u32_2 is the lane with e as its low and o as its high half. *)
From Verif Require Import Base Prog OptPerm.
Open Scope N_scope.
Open Scope prog_scope.

(* ---------- opt_64 ---------- *)

(* opt_64/isap.c 19 *)
Definition ROTR (x : exp) (n : N) : exp := Shr x n .| Shl 64 x (64 - n).
(* opt_64/isap.c 23-27 *)
Definition U64BIG_rotr (x : exp) : exp :=
  (ROTR x 8 .& K 0xFF000000FF000000) .| (ROTR x 24 .& K 0x00FF000000FF0000) .|
  (ROTR x 40 .& K 0x0000FF000000FF00) .| (ROTR x 56 .& K 0x000000FF000000FF).
Definition big_rotr_prog : prog := [ 0%nat ::= U64BIG_rotr 0%nat ].

(* opt_64/isap.c 29-73; the table R is at 103-105. *)
Definition ROUND_a128_64 : prog :=
  [ x2 ^= V vC;
    x0 ^= V x4; x4 ^= V x3; x2 ^= V x1;
    t0 ::= V x0; t4 ::= V x4; t3 ::= V x3; t1 ::= V x1; t2 ::= V x2;
    x0 ::= t0 .^ (Not 64 t1 .& t2);
    x2 ::= t2 .^ (Not 64 t3 .& t4);
    x4 ::= t4 .^ (Not 64 t0 .& t1);
    x1 ::= t1 .^ (Not 64 t2 .& t3);
    x3 ::= t3 .^ (Not 64 t4 .& t0);
    x1 ^= V x0; t1 ::= V x1; x1 ::= ROTR x1 39;
    x3 ^= V x2; t2 ::= V x2; x2 ::= ROTR x2 1;
    t4 ::= V x4; t2 ^= V x2; x2 ::= ROTR x2 (6 - 1);
    t3 ::= V x3; t1 ^= V x1; x3 ::= ROTR x3 10;
    x0 ^= V x4; x4 ::= ROTR x4 7;
    t3 ^= V x3; x2 ^= V t2; x1 ::= ROTR x1 (61 - 39);
    t0 ::= V x0; x2 ::= Not 64 x2; x3 ::= ROTR x3 (17 - 10);
    t4 ^= V x4; x4 ::= ROTR x4 (41 - 7);
    x3 ^= V t3; x1 ^= V t1; x0 ::= ROTR x0 19;
    x4 ^= V t4; t0 ^= V x0; x0 ::= ROTR x0 (28 - 19);
    x0 ^= V t0 ].
(* P12, opt_64/isap.c 75-88 *)
Definition sched_a128_64 (nr : N) : list N :=
  if nr =? 12 then [0xf0; 0xe1; 0xd2; 0xc3; 0xb4; 0xa5; 0x96; 0x87; 0x78; 0x69; 0x5a; 0x4b] else [].

(* ---------- opt_32 ---------- *)

Definition t0_e : nat := 18. Definition t0_o : nat := 19. Definition t1_e : nat := 20. Definition t1_o : nat := 21.
Definition t2_e : nat := 22. Definition t2_o : nat := 23. Definition t3_e : nat := 24. Definition t3_o : nat := 25.
Definition t4_e : nat := 26. Definition t4_o : nat := 27.
(* opt_32/asconp.h 71 *)
Definition ROTR32 (x : exp) (n : N) : exp := Shr x n .| Shl 32 x (32 - n).
(* opt_32/asconp.h 78-136: one iteration of the loop of PX *)
Definition ROUND_a128_32 : prog :=
  asm_in ++
  [ x2_e ^= V C_e; x2_o ^= V C_o;
    x0_e ^= V x4_e; x0_o ^= V x4_o; x4_e ^= V x3_e; x4_o ^= V x3_o; x2_e ^= V x1_e; x2_o ^= V x1_o;
    t0_e ::= V x0_e; t0_o ::= V x0_o; t4_e ::= V x4_e; t4_o ::= V x4_o; t3_e ::= V x3_e; t3_o ::= V x3_o;
    t1_e ::= V x1_e; t1_o ::= V x1_o; t2_e ::= V x2_e; t2_o ::= V x2_o;
    x0_e ::= t0_e .^ (Not 32 t1_e .& t2_e); x0_o ::= t0_o .^ (Not 32 t1_o .& t2_o);
    x2_e ::= t2_e .^ (Not 32 t3_e .& t4_e); x2_o ::= t2_o .^ (Not 32 t3_o .& t4_o);
    x4_e ::= t4_e .^ (Not 32 t0_e .& t1_e); x4_o ::= t4_o .^ (Not 32 t0_o .& t1_o);
    x1_e ::= t1_e .^ (Not 32 t2_e .& t3_e); x1_o ::= t1_o .^ (Not 32 t2_o .& t3_o);
    x3_e ::= t3_e .^ (Not 32 t4_e .& t0_e); x3_o ::= t3_o .^ (Not 32 t4_o .& t0_o);
    x1_e ^= V x0_e; x1_o ^= V x0_o; x3_e ^= V x2_e; x3_o ^= V x2_o; x0_e ^= V x4_e; x0_o ^= V x4_o;
    t0_e ::= x0_e .^ ROTR32 x0_o 4; t0_o ::= x0_o .^ ROTR32 x0_e 5;
    t1_e ::= x1_e .^ ROTR32 x1_e 11; t1_o ::= x1_o .^ ROTR32 x1_o 11;
    t2_e ::= x2_e .^ ROTR32 x2_o 2; t2_o ::= x2_o .^ ROTR32 x2_e 3;
    t3_e ::= x3_e .^ ROTR32 x3_o 3; t3_o ::= x3_o .^ ROTR32 x3_e 4;
    t4_e ::= x4_e .^ ROTR32 x4_e 17; t4_o ::= x4_o .^ ROTR32 x4_o 17;
    x0_e ^= ROTR32 t0_o 9; x0_o ^= ROTR32 t0_e 10;
    x1_e ^= ROTR32 t1_o 19; x1_o ^= ROTR32 t1_e 20;
    x2_e ^= V t2_o; x2_o ^= ROTR32 t2_e 1;
    x3_e ^= ROTR32 t3_e 5; x3_o ^= ROTR32 t3_o 5;
    x4_e ^= ROTR32 t4_o 3; x4_o ^= ROTR32 t4_e 4;
    x2_e ::= Not 32 x2_e; x2_o ::= Not 32 x2_o ] ++
  asm_out.

(* rc_o and rc_e, opt_32/asconp.h 17-18 and opt_32_armv67m/asconp.h 15-16. *)
Definition rc_o : list N := [0xc; 0xc; 0x9; 0x9; 0xc; 0xc; 0x9; 0x9; 0x6; 0x6; 0x3; 0x3].
Definition rc_e : list N := [0xc; 0x9; 0xc; 0x9; 0x6; 0x3; 0x6; 0x3; 0xc; 0x9; 0xc; 0x9].
Definition rc_pair (e o : N) : N := N.lor e (N.shiftl o 32).
(* The loop r = 12 - rounds .. 11 of PX (opt_32/asconp.h 77) and of P_LOOP (opt_32_armv67m/asconp.h 138-148). *)
Definition sched_loop (nr : N) : list N :=
  map (fun r => rc_pair (nth r rc_e 0) (nth r rc_o 0)) (seq (12 - N.to_nat nr) (N.to_nat nr)).

(* ---------- opt_32_armv67m ---------- *)

Definition reg0 : nat := 18. Definition reg1 : nat := 19. Definition reg2 : nat := 20. Definition reg3 : nat := 21.
(* opt_32_armv67m/asconp.h 69-134, transcribed instruction by instruction. *)
Definition asm_armv67m : list arm :=
  [ EOR x0_e x0_e x4_e; EOR x0_o x0_o x4_o; EOR x4_e x4_e x3_e; EOR x4_o x4_o x3_o; EOR x2_e x2_e x1_e;
    EOR x2_o x2_o x1_o; BIC reg0 x0_e x4_e; BIC reg1 x4_e x3_e; BIC reg2 x2_e x1_e; BIC reg3 x1_e x0_e;
    EOR x2_e x2_e reg1; EOR x0_e x0_e reg2; EOR x4_e x4_e reg3; BIC reg3 x3_e x2_e; EOR x3_e x3_e reg0;
    BIC reg2 x0_o x4_o; BIC reg0 x2_o x1_o; BIC reg1 x4_o x3_o; EOR x1_e x1_e reg3; EOR x0_o x0_o reg0;
    EOR x2_o x2_o reg1; BIC reg3 x1_o x0_o; BIC reg0 x3_o x2_o; EOR x3_o x3_o reg2; EOR x3_o x3_o x2_o;
    EOR x4_o x4_o reg3; EOR x1_o x1_o reg0; EOR x3_e x3_e x2_e; EOR x1_e x1_e x0_e; EOR x1_o x1_o x0_o;
    EOR x0_e x0_e x4_e; EOR x0_o x0_o x4_o; MVN x2_e x2_e; MVN x2_o x2_o; EORr reg0 x0_e x0_o 4;
    EORr reg1 x0_o x0_e 5; EORr reg2 x1_e x1_e 11; EORr reg3 x1_o x1_o 11; EORr x0_e x0_e reg1 9;
    EORr x0_o x0_o reg0 10; EORr x1_e x1_e reg3 19; EORr x1_o x1_o reg2 20; EORr reg0 x2_e x2_o 2;
    EORr reg1 x2_o x2_e 3; EORr reg2 x3_e x3_o 3; EORr reg3 x3_o x3_e 4; EOR x2_e x2_e reg1;
    EORr x2_o x2_o reg0 1; EORr x3_e x3_e reg2 5; EORr x3_o x3_o reg3 5; EORr reg0 x4_e x4_e 17;
    EORr reg1 x4_o x4_o 17; EORr x4_e x4_e reg1 3; EORr x4_o x4_o reg0 4 ].
(* The constants are added in C before the assembly: lines 144-145 and in P_12. *)
Definition ROUND_armv67m : prog :=
  asm_in ++ [ x2_e ^= V C_e; x2_o ^= V C_o ] ++ arm_prog [] asm_armv67m ++ asm_out.
(* P_12(), opt_32_armv67m/asconp.h 152-193: constants for x2.e and x2.o. *)
Definition sched_P_12 (nr : N) : list N :=
  if nr =? 12 then
    [ rc_pair 0xc 0xc; rc_pair 0x9 0xc; rc_pair 0xc 0x9; rc_pair 0x9 0x9; rc_pair 0x6 0xc; rc_pair 0x3 0xc;
      rc_pair 0x6 0x9; rc_pair 0x3 0x9; rc_pair 0xc 0x6; rc_pair 0x9 0x6; rc_pair 0xc 0x3; rc_pair 0x9 0x3 ]
  else [].

(* ---------- the interfaces ---------- *)

(* U64BIG and P12 of opt_64. *)
Definition a128_64 : asconp :=
  Asconp (conv big_rotr_prog) (conv big_rotr_prog) (fun x => x) (fun nr => rounds ROUND_a128_64 8 (sched_a128_64 nr)).
(* U64BIG (opt_32/asconp.h 22-28), to_bit_interleaving (33-48) and from_bit_interleaving (53-67) have the text of bi_32/asconp.h; the
   same holds of opt_32_armv67m/asconp.h 20-65. *)
Definition a128_32 : asconp := bi_asconp ROUND_a128_32 22 sched_loop.
(* P_LOOP(12) and P_12() *)
Definition a128_67_loop : asconp := bi_asconp ROUND_armv67m 16 sched_loop.
Definition a128_67_urol : asconp := bi_asconp ROUND_armv67m 16 sched_P_12.
