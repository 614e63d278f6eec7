(* Model of the Keccak-p[400] macros of isapk128av20/avx512 (KeccakP-400-64.macros and KeccakP-400-unrolling.macros there). No proofs.
   A __m512i is 32 lanes of 16 bits, lane 0 in the lowest bits; the state is in lanes 0-24 and lanes 25-31 are never initialised.
   Lane i of register v is variable 32*v+i. Registers: S, E, B, C1-C5, D, B1, B2 of declareABCDEX, and a further one, rT, that takes
   the result of an instruction before it is moved to the destination (so that a destination may also be an operand). Variable 384 is the
   element KeccakF400RoundConstants[i] of the table. *)
From Verif Require Import Base Prog SpecPerm K64Perm.
Open Scope N_scope.
Open Scope prog_scope.

Definition rS : nat := 0. Definition rE : nat := 1. Definition rB : nat := 2.
Definition rC1 : nat := 3. Definition rC2 : nat := 4. Definition rC3 : nat := 5. Definition rC4 : nat := 6. Definition rC5 : nat := 7.
Definition rD : nat := 8. Definition rB1 : nat := 9. Definition rB2 : nat := 10. Definition rT : nat := 11.
Definition lane (v i : nat) : nat := 32 * v + i.
Definition vrc : nat := 384.
Definition lanes32 : list nat := seq 0 32.

(* An instruction: lane i of the destination gets f i, computed from the old values. *)
Definition vset (d : nat) (f : nat -> exp) : prog :=
  map (fun i => lane rT i ::= f i) lanes32 ++ map (fun i => lane d i ::= V (lane rT i)) lanes32.

(* _mm512_set_epi32: elements from the highest down; each is two lanes. *)
Definition set_epi32 (es : list N) : list N := flat_map (fun e => [wtrunc 16 e; N.shiftr e 16]) (rev es).
(* _mm512_permutexvar_epi16(idx, a): lane i is lane idx[i] mod 32 of a. *)
Definition permutexvar (d : nat) (idx : list N) (a : nat) : prog :=
  vset d (fun i => V (lane a (N.to_nat (wtrunc 5 (nth i idx 0))))).
(* _mm512_ternarylogic_epi64 with the two constants in use (see tern_96, tern_d2 in KAvxProof.v), _mm512_or_epi32. *)
Definition ternlog_96 (d a b c : nat) : prog := vset d (fun i => lane a i .^ lane b i .^ lane c i).
Definition ternlog_d2 (d a b c : nat) : prog := vset d (fun i => lane a i .^ (Not 16 (lane b i) .& lane c i)).
Definition or_si (d a b : nat) : prog := vset d (fun i => lane a i .| lane b i).
(* _mm512_slli_epi16, srli_epi16 (one count), sllv_epi16, srlv_epi16 (a count per lane): lanes of 16 bits, counts above 15 give 0. *)
Definition slli (d a : nat) (n : N) : prog := vset d (fun i => Shl 16 (lane a i) n).
Definition srli (d a : nat) (n : N) : prog := vset d (fun i => Shr (lane a i) n).
Definition sllv (d a : nat) (cnt : list N) : prog := vset d (fun i => Shl 16 (lane a i) (nth i cnt 0)).
Definition srlv (d a : nat) (cnt : list N) : prog := vset d (fun i => Shr (lane a i) (nth i cnt 0)).

(* KeccakP-400-64.macros 42-52 *)
Definition pchi1 := set_epi32 [0; 0; 0; 0x000014; 0x180017; 0x160015; 0x0f0013; 0x120011; 0x10000a; 0xe000d; 0xc000b; 0x50009; 0x80007; 0x60000; 0x40003; 0x20001].
Definition pchi2 := set_epi32 [0; 0; 0; 0x000015; 0x140018; 0x170016; 0x10000f; 0x130012; 0x11000b; 0xa000e; 0xd000c; 0x60005; 0x90008; 0x70001; 0x00004; 0x30002].
Definition ppi := set_epi32 [0; 0; 0; 0x0015; 0xf000e; 0x80002; 0x170011; 0xb0005; 0x40014; 0x13000d; 0x70001; 0x160010; 0xa0009; 0x30018; 0x12000c; 0x60000].
Definition lrho := set_epi32 [0; 0; 0; 0x000e; 0x8000d; 0x20002; 0x80005; 0xf000d; 0x90007; 0x9000b; 0xa0003; 0x40007; 0x6000c; 0x4000b; 0xc000e; 0x10000].
Definition rrho := set_epi32 [0; 0; 0; 0x100010 - 0x000e; 0x100010 - 0x8000d; 0x100010 - 0x20002; 0x100010 - 0x80005; 0x100010 - 0xf000d; 0x100010 - 0x90007; 0x100010 - 0x9000b; 0x100010 - 0xa0003; 0x100010 - 0x40007; 0x100010 - 0x6000c; 0x100010 - 0x4000b; 0x100010 - 0xc000e; 0x100010 - 0x10000].
Definition ptheta1 := set_epi32 [0; 0; 0; 0x00014; 0x180017; 0x160015; 0x0f0013; 0x120011; 0x10000a; 0xe000d; 0xc000b; 0x50009; 0x80007; 0x60000; 0x40003; 0x20001].
Definition ptheta2 := set_epi32 [0; 0; 0; 0x0000; 0x40003; 0x20001; 0x140018; 0x170016; 0x15000f; 0x130012; 0x110010; 0xa000e; 0xd000c; 0xb0005; 0x90008; 0x70006].
Definition ptheta3 := set_epi32 [0; 0; 0; 0x0005; 0x90008; 0x70006; 0x00004; 0x30002; 0x10014; 0x180017; 0x160015; 0x0f0013; 0x120011; 0x10000a; 0xe000d; 0xc000b].
Definition ptheta4 := set_epi32 [0; 0; 0; 0x000a; 0xe000d; 0xc000b; 0x50009; 0x80007; 0x60000; 0x40003; 0x20001; 0x140018; 0x170016; 0x15000f; 0x130012; 0x110010].
Definition ptheta5 := set_epi32 [0; 0; 0; 0x000f; 0x130012; 0x110010; 0xa000e; 0xd000c; 0xb0005; 0x90008; 0x70006; 0x00004; 0x30002; 0x10014; 0x180017; 0x160015].
Definition ptheta6 := set_epi32 [0; 0; 0; 0x0016; 0x150014; 0x180017; 0x110010; 0xf0013; 0x12000c; 0xb000a; 0xe000d; 0x70006; 0x50009; 0x80002; 0x10000; 0x40003].

(* thetaRhoPiChiIota(i, A, E), 56-76; the round constant is in vrc. *)
Definition vround (A E : nat) : prog :=
  permutexvar rC1 ptheta1 A ++ permutexvar rC2 ptheta2 A ++ permutexvar rC3 ptheta3 A ++ permutexvar rC4 ptheta4 A ++
  permutexvar rC5 ptheta5 A ++
  ternlog_96 rD rC1 rC2 rC3 ++ ternlog_96 rD rD rC4 rC5 ++
  permutexvar rC3 ptheta6 rD ++
  slli rC1 rD 1 ++ srli rC2 rD 15 ++ or_si rD rC1 rC2 ++
  ternlog_96 A A rD rC3 ++
  sllv rB1 A lrho ++ srlv rB2 A rrho ++ or_si rB rB1 rB2 ++
  permutexvar rB ppi rB ++
  permutexvar rB1 pchi1 rB ++ permutexvar rB2 pchi2 rB ++
  ternlog_d2 E rB rB1 rB2 ++
  [lane E 0 ^= V vrc].
Definition vround_i (i : nat) (A E : nat) : prog := (vrc ::= K (nth i KeccakF400RoundConstants 0)) :: vround A E.

(* KeccakP-400-unrolling.macros: rounds with an even number go from S to E, the others from E to S, the last one is number 19;
   rounds1X ends with copyStateVariables(S, E), KeccakP-400-64.macros 80-82. *)
Definition vrounds_from (i0 : nat) : prog :=
  flat_map (fun i => if Nat.even i then vround_i i rS rE else vround_i i rE rS) (seq i0 (20 - i0)).
Definition vrounds1X : prog := vround_i 19 rS rE ++ vset rS (fun i => V (lane rE i)).
(* PermuteRounds*X with the given number of rounds, isap.c 53-56 *)
Definition kavx_rounds (r : N) : prog :=
  if r =? 20 then vrounds_from 0 else if r =? 16 then vrounds_from 4 else if r =? 12 then vrounds_from 8 else
  if r =? 8 then vrounds_from 12 else if r =? 1 then vrounds1X else [].
(* On the 64 bytes of the vector; scr: whatever the other variables contain. *)
Definition kavx_perm (scr : list N) (r : N) (S : list N) : list N :=
  concat (map (word_le 2) (firstn 32 (run (kavx_rounds r) (map le_word (chunks 2 S) ++ scr)))).
