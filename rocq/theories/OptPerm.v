(* Model of the asconp.h files of /repo/crypto_aead/isapa128av20: byte-order and bit-interleaving conversions, the round
   functions (C and ARM inline assembly) as straight-line word programs, and the round schedules.
   The files of /repo/crypto_aead_hash/isapa128av20 of the same names contain the same text (opt_32_compact has one unused
   macro more). Machine: little-endian, so that byte b[i] of a lane is bits 8i..8i+7 and w[0] its low half. *)
From Verif Require Import Base Prog.
Open Scope N_scope.
Open Scope prog_scope.

(* Variables of the round programs: the lanes s->x[0..4], the round constant C, temporaries. *)
Definition x0 : nat := 0. Definition x1 : nat := 1. Definition x2 : nat := 2.
Definition x3 : nat := 3. Definition x4 : nat := 4.
Definition vC : nat := 5.
Definition t0 : nat := 6. Definition t1 : nat := 7. Definition t2 : nat := 8.
Definition t3 : nat := 9. Definition t4 : nat := 10.

(* ---------- conversions ---------- *)

(* opt_64/asconp.h 41-48; same text in all directories. *)
Definition U64BIG (x : exp) : exp :=
  Shl 64 (x .& K 0x00000000000000FF) 56 .| Shl 64 (x .& K 0x000000000000FF00) 40 .|
  Shl 64 (x .& K 0x0000000000FF0000) 24 .| Shl 64 (x .& K 0x00000000FF000000) 8 .|
  Shr (x .& K 0x000000FF00000000) 8 .| Shr (x .& K 0x0000FF0000000000) 24 .|
  Shr (x .& K 0x00FF000000000000) 40 .| Shr (x .& K 0xFF00000000000000) 56.

(* Conversion programs: the lane is variable 0 on entry and on exit. *)
Definition lo : nat := 1. Definition hi : nat := 2. Definition r0 : nat := 3. Definition r1 : nat := 4.
Definition big_prog : prog := [ 0%nat ::= U64BIG 0%nat ].

(* The two halves w[0], w[1] of a lane, and a lane made of two halves. *)
Definition w0 (x : exp) : exp := Trunc 32 x.
Definition w1 (x : exp) : exp := Shr (Trunc 64 x) 32.
Definition lane (a b : exp) : exp := Trunc 32 a .| Shl 64 b 32.

(* One line  r = (v ^ (v >> k)) & mask, v ^= r ^ (r << k);  on uint32_t. *)
Definition swap_bits (r v : nat) (k mask : N) : prog :=
  [ r ::= (V v .^ Shr v k) .& K mask; v ^= V r .^ Shl 32 r k ].

(* bi_32/asconp.h 53-71. *)
Definition to_bi : prog :=
  [ lo ::= w0 0%nat; hi ::= w1 0%nat ] ++
  swap_bits r0 lo 1 0x22222222 ++ swap_bits r0 lo 2 0x0C0C0C0C ++
  swap_bits r0 lo 4 0x00F000F0 ++ swap_bits r0 lo 8 0x0000FF00 ++
  swap_bits r1 hi 1 0x22222222 ++ swap_bits r1 hi 2 0x0C0C0C0C ++
  swap_bits r1 hi 4 0x00F000F0 ++ swap_bits r1 hi 8 0x0000FF00 ++
  [ 0%nat ::= lane (V lo .& K 0x0000FFFF .| Shl 32 hi 16) (Shr lo 16 .| V hi .& K 0xFFFF0000) ].
(* bi_32/asconp.h 75-91. *)
Definition from_bi : prog :=
  [ lo ::= (w0 0%nat .& K 0x0000FFFF) .| Shl 32 (w1 0%nat) 16;
    hi ::= Shr (w0 0%nat) 16 .| (w1 0%nat .& K 0xFFFF0000) ] ++
  swap_bits r0 lo 8 0x0000FF00 ++ swap_bits r0 lo 4 0x00F000F0 ++
  swap_bits r0 lo 2 0x0C0C0C0C ++ swap_bits r0 lo 1 0x22222222 ++
  swap_bits r1 hi 8 0x0000FF00 ++ swap_bits r1 hi 4 0x00F000F0 ++
  swap_bits r1 hi 2 0x0C0C0C0C ++ swap_bits r1 hi 1 0x22222222 ++
  [ 0%nat ::= Shl 64 hi 32 .| V lo ].

(* bi_8/asconp.h 73-82. *)
Definition interleave8 : prog :=
  [ 0%nat ::= (V 0%nat .& K 0xaa55aa55aa55aa55) .| Shl 64 (V 0%nat .& K 0x00aa00aa00aa00aa) 7 .|
              (Shr 0%nat 7 .& K 0x00aa00aa00aa00aa);
    0%nat ::= (V 0%nat .& K 0xcccc3333cccc3333) .| Shl 64 (V 0%nat .& K 0x0000cccc0000cccc) 14 .|
              (Shr 0%nat 14 .& K 0x0000cccc0000cccc);
    0%nat ::= (V 0%nat .& K 0xf0f0f0f00f0f0f0f) .| Shl 64 (V 0%nat .& K 0x00000000f0f0f0f0) 28 .|
              (Shr 0%nat 28 .& K 0x00000000f0f0f0f0) ].

(* ---------- rounds in C ---------- *)

(* S-box with a second copy of the state, opt_64/asconp.h 58-72, bi_32/asconp.h 114-128. *)
Definition sbox_copy : prog :=
  [ x2 ^= V vC;
    x0 ^= V x4; x4 ^= V x3; x2 ^= V x1;
    t0 ::= x0 .^ (Not 64 x1 .& x2);
    t2 ::= x2 .^ (Not 64 x3 .& x4);
    t4 ::= x4 .^ (Not 64 x0 .& x1);
    t1 ::= x1 .^ (Not 64 x2 .& x3);
    t3 ::= x3 .^ (Not 64 x4 .& x0);
    t1 ^= V t0; t3 ^= V t2; t0 ^= V t4 ].
(* Linear layer with two rotations per lane, opt_64/asconp.h 73-84, bi_32/asconp.h 129-140. *)
Definition lin_two (ROR : exp -> N -> exp) : prog :=
  [ x2 ::= t2 .^ ROR t2 (6 - 1);
    x3 ::= t3 .^ ROR t3 (17 - 10);
    x4 ::= t4 .^ ROR t4 (41 - 7);
    x0 ::= t0 .^ ROR t0 (28 - 19);
    x1 ::= t1 .^ ROR t1 (61 - 39);
    x2 ::= t2 .^ ROR x2 1;
    x3 ::= t3 .^ ROR x3 10;
    x4 ::= t4 .^ ROR x4 7;
    x0 ::= t0 .^ ROR x0 19;
    x1 ::= t1 .^ ROR x1 39;
    x2 ::= Not 64 x2 ].

(* opt_64/asconp.h 52. *)
Definition ROR_64 (x : exp) (n : N) : exp := Shr x n .| Shl 64 x ((64 - n) mod 64).
(* opt_64/asconp.h 56-85. *)
Definition ROUND_opt_64 : prog := sbox_copy ++ lin_two ROR_64.

(* bi_32/asconp.h 95-98 and 102-108. *)
Definition ROR32 (x : exp) (n : N) : exp := Shr x n .| Shl 32 x ((32 - n) mod 32).
Definition ROR_bi_32 (x : exp) (n : N) : exp :=
  if n mod 2 =? 0 then lane (ROR32 (w0 x) (n / 2)) (ROR32 (w1 x) (n / 2))
  else lane (ROR32 (w1 x) ((n - 1) / 2)) (ROR32 (w0 x) ((n + 1) / 2)).
(* bi_32/asconp.h 112-141 (also bi_32_compact, bi_32_stp). *)
Definition ROUND_bi_32 : prog := sbox_copy ++ lin_two ROR_bi_32.

(* In-place S-box, opt_32/asconp.h 54-69, bi_8/asconp.h 88-104; xtemp is t0. The final complement of x2 (opt_32 line 70)
   is not included. *)
Definition sbox_inplace : prog :=
  [ x2 ^= V vC;
    x0 ^= V x4; x4 ^= V x3; x2 ^= V x1;
    t0 ::= x0 .& Not 64 x4;
    x0 ^= V x2 .& Not 64 x1;
    x2 ^= V x4 .& Not 64 x3;
    x4 ^= V x1 .& Not 64 x0;
    x1 ^= V x3 .& Not 64 x2;
    x3 ^= V t0;
    x1 ^= V x0; x3 ^= V x2; x0 ^= V x4 ].
(* opt_32/asconp.h 52-82 (also opt_32_compact, opt_32_tiny, opt_32_stp). *)
Definition ROUND_opt_32 : prog :=
  sbox_inplace ++
  [ x2 ::= Not 64 x2;
    x0 ^= Shr x0 19 .^ Shl 64 x0 45 .^ Shr x0 28 .^ Shl 64 x0 36;
    x1 ^= Shr x1 61 .^ Shl 64 x1 3 .^ Shr x1 39 .^ Shl 64 x1 25;
    x2 ^= Shr x2 1 .^ Shl 64 x2 63 .^ Shr x2 6 .^ Shl 64 x2 58;
    x3 ^= Shr x3 10 .^ Shl 64 x3 54 .^ Shr x3 17 .^ Shl 64 x3 47;
    x4 ^= Shr x4 7 .^ Shl 64 x4 57 .^ Shr x4 41 .^ Shl 64 x4 23 ].

(* Byte i of a lane, and the assignment of byte i. *)
Definition getb (x : exp) (i : N) : exp := Trunc 8 (Shr x (8 * i)).
Definition setb (x : nat) (i : N) (e : exp) : stmt :=
  x ::= (V x .& K (N.ldiff (N.ones 64) (N.shiftl 255 (8 * i)))) .| Shl 64 (Trunc 8 e) (8 * i).

(* bi_8/asconp.h 53 (the byte is promoted to int, the result truncated to uint8_t). *)
Definition ROR8 (a : exp) (n : N) : exp := Trunc 8 (Shr a n .| Shl 32 a (8 - n)).
(* bi_8/asconp.h 57-69. *)
Definition ROR_bi_8 (x : exp) (n : N) : exp :=
  let b i := Shl 64 (ROR8 (getb x (N.land (n + i) 7)) (N.shiftr (n + i) 3)) (8 * i) in
  b 0 .| b 1 .| b 2 .| b 3 .| b 4 .| b 5 .| b 6 .| b 7.
(* bi_8/asconp.h 86-117; xtemp is t0. *)
Definition ROUND_bi_8 : prog :=
  sbox_inplace ++
  [ t0 ::= x0 .^ ROR_bi_8 x0 (28 - 19); x0 ^= ROR_bi_8 t0 19;
    t0 ::= x1 .^ ROR_bi_8 x1 (61 - 39); x1 ^= ROR_bi_8 t0 39;
    t0 ::= x2 .^ ROR_bi_8 x2 (6 - 1); x2 ^= ROR_bi_8 t0 1;
    t0 ::= x3 .^ ROR_bi_8 x3 (17 - 10); x3 ^= ROR_bi_8 t0 10;
    t0 ::= x4 .^ ROR_bi_8 x4 (41 - 7); x4 ^= ROR_bi_8 t0 7;
    x2 ::= Not 64 x2 ].

(* opt_8/asconp.h 52-76: ROR(src, n) into variable rb; a.b[i] * (1 << x) is a left shift by x. Variables a, tmp, rb. *)
Definition va : nat := 9. Definition vtmp : nat := 10. Definition rb : nat := 11.
Definition XMUL (byte_rol i x : N) : prog :=
  [ vtmp ::= Trunc 16 (Shl 32 (getb va i) x);
    setb rb (N.land (byte_rol + i) 7) (getb rb (N.land (byte_rol + i) 7) .^ Trunc 8 vtmp);
    setb rb (N.land (byte_rol + i + 1) 7) (getb rb (N.land (byte_rol + i + 1) 7) .^ Shr vtmp 8) ].
Definition ROR_opt_8 (src : nat) (n : N) : prog :=
  let bit_rol := N.land (64 - n) 7 in
  let byte_rol := N.shiftr (64 - n) 3 in
  [ va ::= V src; rb ::= K 0 ] ++
  XMUL byte_rol 0 bit_rol ++ XMUL byte_rol 1 bit_rol ++ XMUL byte_rol 2 bit_rol ++ XMUL byte_rol 3 bit_rol ++
  XMUL byte_rol 4 bit_rol ++ XMUL byte_rol 5 bit_rol ++ XMUL byte_rol 6 bit_rol ++ XMUL byte_rol 7 bit_rol.
(* opt_8/asconp.h 90-103; xtemp is variable 12, temp variable 13. *)
Definition vx : nat := 12. Definition vtemp : nat := 13.
Definition lin_opt_8 (dst src : nat) (n1 n2 : N) : prog :=
  ROR_opt_8 src n1 ++ [ vtemp ::= src .^ rb ] ++ ROR_opt_8 vtemp n2 ++ [ dst ::= src .^ rb ].
Definition LINEAR_LAYER : prog :=
  lin_opt_8 x0 x2 (28 - 19) 19 ++
  lin_opt_8 x2 x4 (6 - 1) 1 ++
  lin_opt_8 x4 x1 (41 - 7) 7 ++
  lin_opt_8 x1 x3 (61 - 39) 39 ++
  lin_opt_8 x3 vx (17 - 10) 10.
(* opt_8/asconp.h 107-129; uint8_t t0, t1, t2. *)
Definition NONLINEAR_LAYER (pos : N) : prog :=
  [ t0 ::= getb x1 pos .^ getb x2 pos;
    t1 ::= getb x0 pos .^ getb x4 pos;
    t2 ::= getb x3 pos .^ getb x4 pos;
    setb x4 pos (getb x3 pos .| Not 8 (getb x4 pos));
    setb x4 pos (getb x4 pos .^ t0);
    setb x3 pos (getb x3 pos .^ getb x1 pos);
    setb x3 pos (getb x3 pos .| t0);
    setb x3 pos (getb x3 pos .^ t1);
    setb x2 pos (getb x2 pos .^ t1);
    setb x2 pos (getb x2 pos .| getb x1 pos);
    setb x2 pos (getb x2 pos .^ t2);
    setb x1 pos (getb x1 pos .& Not 8 t1);
    setb x1 pos (getb x1 pos .^ t2);
    setb x0 pos (getb x0 pos .| t2);
    setb vx pos (getb x0 pos .^ t0) ].
(* opt_8/asconp.h 133-143 (also opt_8_tiny); the loop variable is 0..7. *)
Definition ROUND_opt_8 : prog :=
  [ setb x2 0 (getb x2 0 .^ vC) ] ++
  NONLINEAR_LAYER 0 ++ NONLINEAR_LAYER 1 ++ NONLINEAR_LAYER 2 ++ NONLINEAR_LAYER 3 ++
  NONLINEAR_LAYER 4 ++ NONLINEAR_LAYER 5 ++ NONLINEAR_LAYER 6 ++ NONLINEAR_LAYER 7 ++
  LINEAR_LAYER.

(* ---------- rounds in ARM inline assembly ---------- *)

(* The instructions used, on 32-bit registers; destination first. *)
Inductive arm :=
| EOR (d a b : nat) | EORr (d a b : nat) (k : N)     (* eor d, a, b    eor d, a, b, ror #k *)
| AND (d a b : nat) | ORR (d a b : nat) | ORN (d a b : nat) | BIC (d a b : nat)
| MVN (d a : nat) | MOV (d a : nat) | MOVi (d : nat) (k : N)
| ROR (d a b : nat).                                 (* ror d, a, b: amount in the low byte of register b *)

(* Translation of straight-line code; kn: registers known to hold a constant. A rotation by an unknown amount has no
   translation and sets the register to a value that makes every correctness statement fail. *)
Definition forget (d : nat) (kn : list (nat * N)) := filter (fun e => negb (fst e =? d)%nat) kn.
Fixpoint arm_prog (kn : list (nat * N)) (l : list arm) : prog :=
  match l with
  | [] => []
  | i :: l' =>
      match i with
      | EOR d a b => (d ::= a .^ b) :: arm_prog (forget d kn) l'
      | EORr d a b k => (d ::= a .^ Ror 32 b k) :: arm_prog (forget d kn) l'
      | AND d a b => (d ::= a .& b) :: arm_prog (forget d kn) l'
      | ORR d a b => (d ::= a .| b) :: arm_prog (forget d kn) l'
      | ORN d a b => (d ::= a .| Not 32 b) :: arm_prog (forget d kn) l'
      | BIC d a b => (d ::= a .& Not 32 b) :: arm_prog (forget d kn) l'
      | MVN d a => (d ::= Not 32 a) :: arm_prog (forget d kn) l'
      | MOV d a => (d ::= V a) :: arm_prog (forget d kn) l'
      | MOVi d k => (d ::= K k) :: arm_prog ((d, k) :: forget d kn) l'
      | ROR d a b =>
          match find (fun e => (fst e =? b)%nat) kn with
          | Some (_, k) => (d ::= Ror 32 a (k mod 256 mod 32)) :: arm_prog (forget d kn) l'
          | None => (d ::= K 0) :: arm_prog (forget d kn) l'
          end
      end
  end.

(* Operands of the asm statements: "+r"(s->w[i][0]), "+r"(s->w[i][1]), the constant halves and the temporaries. *)
Definition x0_e : nat := 6.  Definition x0_o : nat := 7.  Definition x1_e : nat := 8.  Definition x1_o : nat := 9.
Definition x2_e : nat := 10. Definition x2_o : nat := 11. Definition x3_e : nat := 12. Definition x3_o : nat := 13.
Definition x4_e : nat := 14. Definition x4_o : nat := 15. Definition C_e : nat := 16.  Definition C_o : nat := 17.
Definition tmp0 : nat := 18. Definition tmp1 : nat := 19. Definition tmp2 : nat := 20.
Definition asm_in : prog :=
  [ x0_e ::= w0 x0; x0_o ::= w1 x0; x1_e ::= w0 x1; x1_o ::= w1 x1; x2_e ::= w0 x2; x2_o ::= w1 x2;
    x3_e ::= w0 x3; x3_o ::= w1 x3; x4_e ::= w0 x4; x4_o ::= w1 x4; C_e ::= w0 vC; C_o ::= w1 vC ].
Definition asm_out : prog :=
  [ x0 ::= lane x0_e x0_o; x1 ::= lane x1_e x1_o; x2 ::= lane x2_e x2_o; x3 ::= lane x3_e x3_o; x4 ::= lane x4_e x4_o ].
Definition asm_round (l : list arm) : prog := asm_in ++ arm_prog [] l ++ asm_out.

(* bi_32_armv6/asconp.h 95-165, transcribed instruction by instruction. *)
Definition asm_armv6 : list arm :=
  [ EOR x0_e x0_e x4_e; EOR x4_e x4_e x3_e; EOR x2_e x2_e x1_e; MVN tmp0 x0_e; ORR tmp0 x4_e tmp0;
    EOR x2_e x2_e C_e; BIC tmp1 x2_e x1_e; EOR x0_e x0_e tmp1; MVN tmp1 x4_e; ORR tmp1 x3_e tmp1;
    EOR x2_e x2_e tmp1; BIC tmp1 x1_e x0_e; EOR x4_e x4_e tmp1; AND tmp1 x3_e x2_e; EOR x1_e x1_e tmp1;
    EOR x3_e x3_e tmp0; EOR x1_e x1_e x0_e; EOR x3_e x3_e x2_e; EOR x0_e x0_e x4_e; EOR x0_o x0_o x4_o;
    EOR x4_o x4_o x3_o; EOR x2_o x2_o C_o; EOR x2_o x2_o x1_o; MVN tmp0 x0_o; ORR tmp0 x4_o tmp0;
    BIC tmp1 x2_o x1_o; EOR x0_o x0_o tmp1; MVN tmp1 x4_o; ORR tmp1 x3_o tmp1; EOR x2_o x2_o tmp1;
    BIC tmp1 x1_o x0_o; EOR x4_o x4_o tmp1; AND tmp1 x3_o x2_o; EOR x1_o x1_o tmp1; EOR x3_o x3_o tmp0;
    EOR x1_o x1_o x0_o; EOR x3_o x3_o x2_o; EOR x0_o x0_o x4_o; EORr tmp0 x0_e x0_o 4; EORr tmp1 x0_o x0_e 5;
    EORr x0_o x0_o tmp0 10; EORr x0_e x0_e tmp1 9; EORr tmp0 x1_e x1_e 11; EORr tmp1 x1_o x1_o 11;
    EORr x1_o x1_o tmp0 20; EORr x1_e x1_e tmp1 19; EORr tmp0 x2_e x2_o 2; EORr tmp1 x2_o x2_e 3;
    EORr x2_o x2_o tmp0 1; EOR x2_e x2_e tmp1; EORr tmp0 x3_e x3_o 3; EORr tmp1 x3_o x3_e 4;
    EORr x3_e x3_e tmp0 5; EORr x3_o x3_o tmp1 5; EORr tmp0 x4_e x4_e 17; EORr tmp1 x4_o x4_o 17;
    EORr x4_o x4_o tmp0 4; EORr x4_e x4_e tmp1 3 ].
Definition ROUND_armv6 : prog := asm_round asm_armv6.

(* bi_32_armv7m/asconp.h 95-166, transcribed instruction by instruction. *)
Definition asm_armv7m : list arm :=
  [ EOR x2_e x2_e C_e; EOR tmp0 x1_e x2_e; EOR tmp1 x0_e x4_e; EOR tmp2 x3_e x4_e; ORN x4_e x3_e x4_e;
    EOR x4_e x4_e tmp0; EOR x3_e x3_e x1_e; ORR x3_e x3_e tmp0; EOR x3_e x3_e tmp1; EOR x2_e x2_e tmp1;
    ORR x2_e x2_e x1_e; EOR x2_e x2_e tmp2; BIC x1_e x1_e tmp1; EOR x1_e x1_e tmp2; ORR x0_e x0_e tmp2;
    EOR x0_e x0_e tmp0; EOR x2_o x2_o C_o; EOR tmp0 x1_o x2_o; EOR tmp1 x0_o x4_o; EOR tmp2 x3_o x4_o;
    ORN x4_o x3_o x4_o; EOR x4_o x4_o tmp0; EOR x3_o x3_o x1_o; ORR x3_o x3_o tmp0; EOR x3_o x3_o tmp1;
    EOR x2_o x2_o tmp1; ORR x2_o x2_o x1_o; EOR x2_o x2_o tmp2; BIC x1_o x1_o tmp1; EOR x1_o x1_o tmp2;
    ORR x0_o x0_o tmp2; EOR x0_o x0_o tmp0; EORr tmp0 x2_e x2_o 4; EORr tmp1 x2_o x2_e 5;
    EORr x2_o x2_o tmp0 10; EORr x2_e x2_e tmp1 9; EORr tmp0 x3_e x3_e 11; EORr tmp1 x3_o x3_o 11;
    EORr x3_o x3_o tmp0 20; EORr x3_e x3_e tmp1 19; EORr tmp0 x4_e x4_o 2; EORr tmp1 x4_o x4_e 3;
    EORr x4_o x4_o tmp0 1; EOR x4_e x4_e tmp1; EORr tmp0 x0_e x0_o 3; EORr tmp1 x0_o x0_e 4;
    EORr x0_e x0_e tmp0 5; EORr x0_o x0_o tmp1 5; EORr tmp0 x1_e x1_e 17; EORr tmp1 x1_o x1_o 17;
    EORr x1_o x1_o tmp0 4; EORr x1_e x1_e tmp1 3 ].
Definition ROUND_armv7m : prog := asm_round asm_armv7m.

(* bi_32_armv6m/asconp.h 95-244 (also armv6m_compact; armv6m_stp 96-245), transcribed instruction by instruction. *)
Definition asm_armv6m : list arm :=
  [ MOV tmp1 C_e; EOR x2_e x2_e tmp1; EOR x0_e x0_e x4_e; EOR x4_e x4_e x3_e; EOR x2_e x2_e x1_e;
    MOV tmp0 x0_e; BIC tmp0 tmp0 x4_e; MOV tmp1 x2_e; BIC tmp1 tmp1 x1_e; EOR x0_e x0_e tmp1; MOV tmp1 x4_e;
    BIC tmp1 tmp1 x3_e; EOR x2_e x2_e tmp1; MOV tmp2 x1_e; BIC tmp2 tmp2 x0_e; EOR tmp2 x4_e tmp2;
    MOV tmp1 x3_e; BIC tmp1 tmp1 x2_e; EOR tmp1 x1_e tmp1; EOR tmp0 x3_e tmp0; EOR tmp0 tmp0 x2_e;
    EOR tmp1 tmp1 x0_e; EOR x0_e x0_e tmp2; MOV x4_e x4_o; MOV x1_e x1_o; MOV x3_e x3_o; MOV x3_o tmp0;
    MOV x1_o tmp1; MOV tmp0 x0_o; MOV tmp1 x2_o; MOV x0_o x0_e; MOV x2_o x2_e; MOV x0_e C_o;
    EOR tmp1 tmp1 x0_e; EOR tmp0 tmp0 x4_e; EOR x4_e x4_e x3_e; EOR tmp1 tmp1 x1_e; MOV x0_e tmp0;
    BIC x0_e x0_e x4_e; MOV x2_e tmp1; BIC x2_e x2_e x1_e; EOR tmp0 tmp0 x2_e; MOV x2_e x4_e;
    BIC x2_e x2_e x3_e; EOR tmp1 tmp1 x2_e; MOV x2_e x1_e; BIC x2_e x2_e tmp0; EOR x4_e x4_e x2_e;
    MOV x2_e x3_e; BIC x2_e x2_e tmp1; EOR x1_e x1_e x2_e; EOR x3_e x3_e x0_e; EOR x3_e x3_e tmp1;
    EOR x1_e x1_e tmp0; EOR tmp0 tmp0 x4_e; MOV x4_o tmp1; MOV x2_e x3_o; MOV x3_o x1_e; MOVi tmp1 17;
    MOV x0_e tmp2; ROR x0_e x0_e tmp1; EOR x0_e tmp2 x0_e; MOV x1_e x4_e; ROR x1_e x1_e tmp1;
    EOR x1_e x4_e x1_e; MOVi tmp1 3; ROR x1_e x1_e tmp1; EOR tmp2 tmp2 x1_e; MOVi tmp1 4; ROR x0_e x0_e tmp1;
    EOR x4_e x4_e x0_e; MOV x1_e x2_e; ROR x1_e x1_e tmp1; EOR x1_e x3_e x1_e; MOVi tmp1 3; MOV x0_e x3_e;
    ROR x0_e x0_e tmp1; EOR x0_e x2_e x0_e; MOVi tmp1 5; ROR x0_e x0_e tmp1; EOR x2_e x2_e x0_e;
    ROR x1_e x1_e tmp1; EOR x3_e x3_e x1_e; MOV x0_e x0_o; MOV x1_e x1_o; MOV x1_o x2_e; MOV x0_o tmp2;
    MOV tmp2 x4_o; MOV x4_o x4_e; MOV x4_e x3_o; MOV x3_o x3_e; MOV x3_e x0_e; ROR x3_e x3_e tmp1;
    EOR x3_e tmp0 x3_e; MOVi tmp1 4; MOV x2_e tmp0; ROR x2_e x2_e tmp1; EOR x2_e x0_e x2_e; MOVi tmp1 9;
    ROR x3_e x3_e tmp1; EOR x0_e x0_e x3_e; MOVi tmp1 10; ROR x2_e x2_e tmp1; EOR tmp0 tmp0 x2_e; MOVi tmp1 11;
    MOV x2_e x1_e; ROR x2_e x2_e tmp1; EOR x2_e x1_e x2_e; MOV x3_e x4_e; ROR x3_e x3_e tmp1;
    EOR x3_e x4_e x3_e; MOVi tmp1 19; ROR x3_e x3_e tmp1; EOR x1_e x1_e x3_e; MOVi tmp1 20; ROR x2_e x2_e tmp1;
    EOR x4_e x4_e x2_e; MOV x2_e x2_o; MOV x3_e x1_o; MOV x1_o x4_e; MOV x2_o tmp0; MOVi x4_e 2; MVN tmp0 tmp2;
    ROR tmp0 tmp0 x4_e; EOR tmp0 x2_e tmp0; MOVi x4_e 3; MVN tmp1 x2_e; ROR tmp1 tmp1 x4_e; EOR tmp1 tmp2 tmp1;
    EOR x2_e x2_e tmp1; MOVi x4_e 1; ROR tmp0 tmp0 x4_e; EOR tmp2 tmp2 tmp0; MOV x4_e x0_o; MOV x0_o x2_o;
    MOV x2_o tmp2 ].
Definition ROUND_armv6m : prog := asm_round asm_armv6m.

(* ---------- round schedules ---------- *)

(* A call sequence ROUND(s, c1); ROUND(s, c2); ... on the five lanes; n: number of temporaries. *)
Definition rounds (p : prog) (n : nat) (cs : list N) (ws : list N) : list N :=
  fold_left (fun ws c => firstn 5 (run p (ws ++ [c] ++ repeat 0 n))) cs ws.

(* P12ROUNDS, P6ROUNDS, P1ROUNDS: opt_64/asconp.h 89-122, opt_32/asconp.h 86-119. Round counts other than those for which
   a function exists are not used by isap.c (mapped to nothing here). *)
Definition sched_plain (nr : N) : list N :=
  if nr =? 12 then [0xf0; 0xe1; 0xd2; 0xc3; 0xb4; 0xa5; 0x96; 0x87; 0x78; 0x69; 0x5a; 0x4b]
  else if nr =? 6 then [0x96; 0x87; 0x78; 0x69; 0x5a; 0x4b]
  else if nr =? 1 then [0x4b] else [].
(* bi_32/asconp.h 145-178, also armv6, armv7m, armv6m. *)
Definition sched_bi (nr : N) : list N :=
  if nr =? 12 then [0xc0000000c; 0xc00000009; 0x90000000c; 0x900000009; 0xc00000006; 0xc00000003;
                    0x900000006; 0x900000003; 0x60000000c; 0x600000009; 0x30000000c; 0x300000009]
  else if nr =? 6 then [0x900000006; 0x900000003; 0x60000000c; 0x600000009; 0x30000000c; 0x300000009]
  else if nr =? 1 then [0x300000009] else [].

(* switch (nr) with fall-through: a list of (case label, constants up to the next label), then the default part.
   Execution starts at the matching label and falls through to the end. *)
Fixpoint switch_fall (nr : N) (cases : list (N * list N)) (dflt : list N) : list N :=
  match cases with
  | [] => dflt
  | (k, cs) :: rest => if nr =? k then cs ++ concat (map snd rest) ++ dflt else switch_fall nr rest dflt
  end.
(* opt_32_compact/asconp.h 86-106, opt_8/asconp.h 147-167. *)
Definition sched_switch (nr : N) : list N :=
  switch_fall nr [(12, [0xf0; 0xe1; 0xd2; 0xc3; 0xb4; 0xa5]); (6, [0x96; 0x87; 0x78; 0x69; 0x5a])] [0x4b].
(* opt_32_stp/asconp.h 87-108: one more label. *)
Definition sched_switch_stp (nr : N) : list N :=
  switch_fall nr [(12, [0xf0; 0xe1; 0xd2; 0xc3; 0xb4]); (7, [0xa5]); (6, [0x96; 0x87; 0x78; 0x69; 0x5a])] [0x4b].
(* bi_32_compact/asconp.h 145-166, bi_32_armv6m_compact/asconp.h 248-269. *)
Definition sched_switch_bi (nr : N) : list N :=
  switch_fall nr
    [(12, [0xc0000000c; 0xc00000009; 0x90000000c; 0x900000009; 0xc00000006; 0xc00000003]);
     (6, [0x900000006; 0x900000003; 0x60000000c; 0x600000009; 0x30000000c])] [0x300000009].
(* bi_32_stp/asconp.h 146-168, bi_32_armv6m_stp/asconp.h 249-271. *)
Definition sched_switch_bi_stp (nr : N) : list N :=
  switch_fall nr
    [(12, [0xc0000000c; 0xc00000009; 0x90000000c; 0x900000009; 0xc00000006]); (7, [0xc00000003]);
     (6, [0x900000006; 0x900000003; 0x60000000c; 0x600000009; 0x30000000c])] [0x300000009].
(* bi_8/asconp.h 121-141. *)
Definition sched_switch_bi_8 (nr : N) : list N :=
  switch_fall nr
    [(12, [0x0101010100000000; 0x0101010000000001; 0x0101000100000100; 0x0101000000000101; 0x0100010100010000;
           0x0100010000010001]);
     (6, [0x0100000100010100; 0x0100000000010101; 0x0001010101000000; 0x0001010001000001; 0x0001000101000100])]
    [0x0001000001000101].
(* opt_32_tiny/asconp.h 86-99, opt_8_tiny/asconp.h 147-160: do { ROUND(s, RC(i)); i += INC; } while (i != END) on an int
   i, the constant being converted to uint8_t. None: the loop does not end within the given number of iterations. *)
Fixpoint tiny_loop (fuel : nat) (i : Z) : option (list N) :=
  match fuel with
  | O => None
  | S f =>
      let c := Z.to_N (i mod 256) in
      let i := (i + - 0x0f)%Z in
      if (i =? 0x3c)%Z then Some [c] else option_map (cons c) (tiny_loop f i)
  end.
Definition sched_tiny (nr : N) : list N :=
  let n := Z.of_N nr in
  match tiny_loop 256 (Z.lor (Z.shiftl (3 + n) 4) (12 - n)) with Some l => l | None => [] end.

(* ---------- the interface used by isap.c ---------- *)

(* U64TOWORD, WORDTOU64, TOBI on a lane; PROUNDS(s, n) on the five lanes. *)
Record asconp := Asconp {
  U64TOWORD : N -> N;
  WORDTOU64 : N -> N;
  TOBI : N -> N;
  PROUNDS : N -> list N -> list N }.
Definition conv (p : prog) (x : N) : N := nth 0 (run p [x; 0; 0; 0; 0]) 0.

Definition plain_asconp (p : prog) (n : nat) (sched : N -> list N) : asconp :=
  Asconp (conv big_prog) (conv big_prog) (fun x => x) (fun nr => rounds p n (sched nr)).
Definition bi_asconp (p : prog) (n : nat) (sched : N -> list N) : asconp :=
  Asconp (fun x => conv to_bi (conv big_prog x)) (fun x => conv big_prog (conv from_bi x)) (conv to_bi)
         (fun nr => rounds p n (sched nr)).
Definition bi8_asconp (p : prog) (n : nat) (sched : N -> list N) : asconp :=
  Asconp (fun x => conv interleave8 (conv big_prog x)) (fun x => conv big_prog (conv interleave8 x)) (conv interleave8)
         (fun nr => rounds p n (sched nr)).

(* One entry per directory. *)
Definition opt_64 := plain_asconp ROUND_opt_64 8 sched_plain.
Definition opt_32 := plain_asconp ROUND_opt_32 8 sched_plain.
Definition opt_32_compact := plain_asconp ROUND_opt_32 8 sched_switch.
Definition opt_32_tiny := plain_asconp ROUND_opt_32 8 sched_tiny.
Definition opt_32_stp := plain_asconp ROUND_opt_32 8 sched_switch_stp.
Definition opt_8 := plain_asconp ROUND_opt_8 8 sched_switch.
Definition opt_8_tiny := plain_asconp ROUND_opt_8 8 sched_tiny.
Definition bi_32 := bi_asconp ROUND_bi_32 8 sched_bi.
Definition bi_32_compact := bi_asconp ROUND_bi_32 8 sched_switch_bi.
Definition bi_32_stp := bi_asconp ROUND_bi_32 8 sched_switch_bi_stp.
Definition bi_32_armv6 := bi_asconp ROUND_armv6 15 sched_bi.
Definition bi_32_armv7m := bi_asconp ROUND_armv7m 15 sched_bi.
Definition bi_32_armv6m := bi_asconp ROUND_armv6m 15 sched_bi.
Definition bi_32_armv6m_compact := bi_asconp ROUND_armv6m 15 sched_switch_bi.
Definition bi_32_armv6m_stp := bi_asconp ROUND_armv6m 15 sched_switch_bi_stp.
Definition bi_8 := bi8_asconp ROUND_bi_8 8 sched_switch_bi_8.
