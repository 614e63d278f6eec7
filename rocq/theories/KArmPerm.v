(* Model of KeccakP-400-armv7m-le-gcc.s and KeccakP-400-armv6m-le-gcc.s (opt_32_armv7m and opt_32_armv6m, the same files in isapk128av20
   and isapk128v20): the permutation KeccakP400_Permute_Nrounds. No proofs.
   Variables: 0-24 the lanes of the state in memory ([r0]), 25-49 the copy on the stack ([sp], in armv6m [r6]), 16 bits each, order ba be
   bi bo bu ga ... su; 50-56 registers r1-r7, 58-61 registers r9-r12, 62 lr, 32 bits each; 63 the halfword of the table of round constants
   that r8 (armv6m: r7) points to. Registers used as addresses (r0, r8, sp, and in armv6m r6) are not variables: the copies of the state
   they point to are arguments of the macros, and the position in the table is an argument of the loops below. Flags set by the movs, eors,
   ... of armv6m are never used. Saving and restoring of the caller's registers is not modelled. *)
From Verif Require Import Base Prog SpecPerm.
From Verif Require Import K64Perm.
Open Scope N_scope.
Open Scope prog_scope.

Definition AS : nat := 0.      (* state in memory *)
Definition AT : nat := 25.     (* copy on the stack *)
Definition r1 : nat := 50. Definition r2 : nat := 51. Definition r3 : nat := 52. Definition r4 : nat := 53. Definition r5 : nat := 54.
Definition r6 : nat := 55. Definition r7 : nat := 56.
Definition r9 : nat := 58. Definition r10 : nat := 59. Definition r11 : nat := 60. Definition r12 : nat := 61.
Definition lr : nat := 62.
Definition aRC : nat := 63.

(* Instructions. *)
Definition ldrh (d X l : nat) : stmt := d ::= V (ls X l).
(* a word: two neighbouring lanes, little-endian. armv7m accepts addresses that are not multiples of 4 here. *)
Definition ldr (d X l : nat) : stmt := d ::= ls X l .| Shl 32 (ls X (S l)) 16.
Definition strh (s X l : nat) : stmt := ls X l ::= Trunc 16 s.
Definition eor (d a b : nat) : stmt := d ::= V a .^ V b.
Definition bic (d a b : nat) : stmt := d ::= V a .& Not 32 b.
Definition uxth (d a : nat) : stmt := d ::= Trunc 16 a.
Definition mov (d a : nat) : stmt := d ::= V a.
(* bfi d, s, #16, #16: the low half of s becomes the high half of d. *)
Definition bfi16 (d s : nat) : stmt := d ::= Trunc 16 d .| Shl 32 (Trunc 16 s) 16.
(* rev16: the bytes of each half exchanged *)
Definition rev16 (d a : nat) : stmt := d ::= Shl 32 (V a .& K 0x00ff00ff) 8 .| (Shr a 8 .& K 0x00ff00ff).
(* sxth: bit 15 copied to bits 16-31 *)
Definition sxth (d a : nat) : stmt :=
  d ::= fold_left (fun e k => e .| Shl 32 (V a .& K 0x8000) k) [1;2;3;4;5;6;7;8;9;10;11;12;13;14;15;16] (Trunc 16 a).

(* ---------- armv7m, KeccakP-400-armv7m-le-gcc.s ---------- *)

(* 55-64 *)
Definition xor5_7 (result X b g k m rs : nat) : prog :=
  [ ldrh result X b; ldrh r6 X g; eor result result rs; ldrh rs X k; eor result result r6; ldrh r6 X m; eor result result rs;
    eor result result r6 ].
(* 66-78 *)
Definition xor5D (resultL resultH X b g k m rsL rsH : nat) : prog :=
  [ bfi16 rsL rsH; ldr resultL X b; ldr r6 X g; eor resultL resultL rsL; ldr rsL X k; eor resultL resultL r6; ldr r6 X m;
    eor resultL resultL rsL; eor resultL resultL r6; resultH ::= Shr resultL 16; uxth resultL resultL ].
(* 80-88 *)
Definition xorrol7 (b yy : nat) (rr : N) : prog :=
  eor b b yy :: if rr =? 8 then [ rev16 b b ] else [ b ::= Shl 32 b rr; b ::= V b .| Shr b 16 ].
(* 90-94 *)
Definition rolxor7 (d a b : nat) : prog := [ d ::= V a .^ Shl 32 b 1; d ::= V d .^ Shr b 15; uxth d d ].
(* 96-100 *)
Definition xandnot7 (Y l aa bb cc temp : nat) : prog := [ bic temp cc bb; eor temp temp aa; strh temp Y l ].
(* 102-108; ldrh r6, [r8], #2 reads the round constant *)
Definition xandnotRC7 (Y l aa bb cc : nat) : prog :=
  [ mov r6 aRC; bic cc cc bb; eor cc cc r6; eor cc cc aa; strh cc Y l ].
(* the five loads of one row *)
Definition row (X a b c d e : nat) : prog := [ ldrh r1 X a; ldrh r2 X b; ldrh r3 X c; ldrh r4 X d; ldrh r5 X e ].
(* KeccakRound sOut, sIn, 110-208, for sIn = X and sOut = Y *)
Definition round7 (X Y : nat) : prog :=
  xor5D r1 r2 X ba ga ka ma r9 r10 ++ xor5D r3 r4 X bi gi ki mi r11 r12 ++
  rolxor7 r9 r7 r2 ++ rolxor7 r10 r1 r3 ++ rolxor7 r11 r2 r4 ++ rolxor7 r12 r3 r7 ++ rolxor7 lr r4 r1 ++
  [ ldrh r1 X ba; ldrh r2 X ge; ldrh r3 X ki; ldrh r4 X mo; eor r1 r1 r9 ] ++
  xorrol7 r2 r10 12 ++ xorrol7 r3 r11 11 ++ xorrol7 r4 r12 5 ++ xorrol7 r5 lr 14 ++
  xandnot7 Y be r2 r3 r4 r6 ++ xandnot7 Y bi r3 r4 r5 r6 ++ xandnot7 Y bo r4 r5 r1 r6 ++ xandnot7 Y bu r5 r1 r2 r7 ++
  xandnotRC7 Y ba r1 r2 r3 ++
  row X bo gu ka me si ++
  xorrol7 r1 r12 12 ++ xorrol7 r2 lr 4 ++ xorrol7 r3 r9 3 ++ xorrol7 r4 r10 13 ++ xorrol7 r5 r11 13 ++
  xandnot7 Y ga r1 r2 r3 r6 ++ xandnot7 Y ge r2 r3 r4 r6 ++ xandnot7 Y gi r3 r4 r5 r6 ++ xandnot7 Y go r4 r5 r1 r6 ++
  xandnot7 Y gu r5 r1 r2 r6 ++ [ eor r7 r7 r6 ] ++
  row X be gi ko mu sa ++
  xorrol7 r1 r10 1 ++ xorrol7 r2 r11 6 ++ xorrol7 r3 r12 9 ++ xorrol7 r4 lr 8 ++ xorrol7 r5 r9 2 ++
  xandnot7 Y ka r1 r2 r3 r6 ++ xandnot7 Y ke r2 r3 r4 r6 ++ xandnot7 Y ki r3 r4 r5 r6 ++ xandnot7 Y ko r4 r5 r1 r6 ++
  xandnot7 Y ku r5 r1 r2 r6 ++ [ eor r7 r7 r6 ] ++
  row X bu ga ke mi so ++
  xorrol7 r1 lr 11 ++ xorrol7 r2 r9 4 ++ xorrol7 r3 r10 10 ++ xorrol7 r4 r11 15 ++ xorrol7 r5 r12 8 ++
  xandnot7 Y ma r1 r2 r3 r6 ++ xandnot7 Y me r2 r3 r4 r6 ++ xandnot7 Y mi r3 r4 r5 r6 ++ xandnot7 Y mo r4 r5 r1 r6 ++
  xandnot7 Y mu r5 r1 r2 r6 ++ [ eor r7 r7 r6 ] ++
  row X bi go ku ma se ++
  xorrol7 r1 r11 14 ++ xorrol7 r2 r12 7 ++ xorrol7 r3 lr 7 ++ xorrol7 r4 r9 9 ++ xorrol7 r5 r10 2 ++
  xandnot7 Y sa r1 r2 r3 r9 ++ xandnot7 Y se r2 r3 r4 r10 ++ xandnot7 Y si r3 r4 r5 r11 ++ xandnot7 Y so r4 r5 r1 r12 ++
  [ bic r1 r2 r1; eor r5 r5 r1; eor r7 r7 r5; uxth r7 r7; strh r5 Y su; uxth r5 r5 ].

(* ldm/stm of six words: registers d1.. receive lanes l, l+1, ..., l+11 of the state, which are copied to the stack. *)
Definition ldm6 (ds : list nat) (l : nat) : prog := map (fun p => ldr (fst p) AS (l + 2 * snd p)) (combine ds (seq 0 6)).
Definition stm6 (ds : list nat) (l : nat) : prog :=
  flat_map (fun p => [ ls AT (l + 2 * snd p) ::= Trunc 16 (V (fst p)); ls AT (S (l + 2 * snd p)) ::= Shr (V (fst p)) 16 ]) (combine ds (seq 0 6)).
(* KeccakP400_PermuteIntern, 411-418: even number of rounds *)
Definition enter7_even : prog :=
  [ ldrh r9 AS sa; ldrh r10 AS se; ldrh r11 AS si; ldrh lr AS su; ldrh r12 AS so; mov r5 lr ] ++ xor5_7 r7 AS bu gu ku mu lr.
(* 382-397: odd number of rounds; uxth r10, r11, ROR #16 is bits 16-31 of r11 *)
Definition regs7 : list nat := [ r2; r3; r4; r5; r11; r12 ].
Definition enter7_odd : prog :=
  ldm6 regs7 0 ++ stm6 regs7 0 ++ ldm6 regs7 12 ++ stm6 regs7 12 ++
  [ ldrh lr AS su; strh lr AT su; uxth r9 r11; r10 ::= Trunc 16 (Ror 32 r11 16); uxth r11 r12; r12 ::= Shr r12 16; mov r5 lr ] ++
  xor5_7 r7 AS bu gu ku mu lr.

(* ---------- armv6m, KeccakP-400-armv6m-le-gcc.s ---------- *)

(* 53-63 *)
Definition xor5_6 (result X b g k m s : nat) : prog :=
  [ ldrh result X b; ldrh r7 X g; eor result result r7; ldrh r7 X k; eor result result r7; ldrh r7 X m; eor result result r7;
    ldrh r7 X s; eor result result r7 ].
(* 65-74 *)
Definition xorrol6 (b yy : nat) (rr : N) : prog :=
  [ mov r7 yy; eor b b r7 ] ++
  if rr =? 0 then [] else [ r7 ::= Shl 32 b rr; b ::= Shr b (16 - rr); b ::= V b .| V r7; uxth b b ].
(* 76-82, rot = 31 *)
Definition rolxor6 (d a b : nat) : prog := [ sxth r7 b; r7 ::= Ror 32 r7 31; eor r7 r7 a; uxth r7 r7; mov d r7 ].
(* 84-89 *)
Definition xandnot6 (Y l aa bb cc : nat) : prog := [ mov r7 cc; bic r7 r7 bb; eor r7 r7 aa; strh r7 Y l ].
(* 91-98; r7 then holds an address and is set again before it is used as a value *)
Definition xandnotRC6 (Y l aa bb cc : nat) : prog := [ bic cc cc bb; eor cc cc aa; mov bb aRC; eor cc cc bb; strh cc Y l ].
(* KeccakRound sOut, sIn, rco, 100-196 *)
Definition round6 (X Y : nat) : prog :=
  xor5_6 r1 X ba ga ka ma sa ++ xor5_6 r2 X be ge ke me se ++ xor5_6 r3 X bi gi ki mi si ++ xor5_6 r4 X bo go ko mo so ++
  xor5_6 r5 X bu gu ku mu su ++
  rolxor6 r9 r5 r2 ++ rolxor6 r10 r1 r3 ++ rolxor6 r11 r2 r4 ++ rolxor6 r12 r3 r5 ++ rolxor6 lr r4 r1 ++
  row X bo gu ka me si ++
  xorrol6 r1 r12 12 ++ xorrol6 r2 lr 4 ++ xorrol6 r3 r9 3 ++ xorrol6 r4 r10 13 ++ xorrol6 r5 r11 13 ++
  xandnot6 Y ga r1 r2 r3 ++ xandnot6 Y ge r2 r3 r4 ++ xandnot6 Y gi r3 r4 r5 ++ xandnot6 Y go r4 r5 r1 ++ xandnot6 Y gu r5 r1 r2 ++
  row X be gi ko mu sa ++
  xorrol6 r1 r10 1 ++ xorrol6 r2 r11 6 ++ xorrol6 r3 r12 9 ++ xorrol6 r4 lr 8 ++ xorrol6 r5 r9 2 ++
  xandnot6 Y ka r1 r2 r3 ++ xandnot6 Y ke r2 r3 r4 ++ xandnot6 Y ki r3 r4 r5 ++ xandnot6 Y ko r4 r5 r1 ++ xandnot6 Y ku r5 r1 r2 ++
  row X bu ga ke mi so ++
  xorrol6 r1 lr 11 ++ xorrol6 r2 r9 4 ++ xorrol6 r3 r10 10 ++ xorrol6 r4 r11 15 ++ xorrol6 r5 r12 8 ++
  xandnot6 Y ma r1 r2 r3 ++ xandnot6 Y me r2 r3 r4 ++ xandnot6 Y mi r3 r4 r5 ++ xandnot6 Y mo r4 r5 r1 ++ xandnot6 Y mu r5 r1 r2 ++
  row X bi go ku ma se ++
  xorrol6 r1 r11 14 ++ xorrol6 r2 r12 7 ++ xorrol6 r3 lr 7 ++ xorrol6 r4 r9 9 ++ xorrol6 r5 r10 2 ++
  xandnot6 Y sa r1 r2 r3 ++ xandnot6 Y se r2 r3 r4 ++ xandnot6 Y si r3 r4 r5 ++ xandnot6 Y so r4 r5 r1 ++ xandnot6 Y su r5 r1 r2 ++
  row X ba ge ki mo su ++
  xorrol6 r1 r9 0 ++ xorrol6 r2 r10 12 ++ xorrol6 r3 r11 11 ++ xorrol6 r4 r12 5 ++ xorrol6 r5 lr 14 ++
  xandnot6 Y be r2 r3 r4 ++ xandnot6 Y bi r3 r4 r5 ++ xandnot6 Y bo r4 r5 r1 ++ xandnot6 Y bu r5 r1 r2 ++
  xandnotRC6 Y ba r1 r2 r3.
(* 374-382: odd number of rounds *)
Definition regs6 : list nat := [ r1; r2; r3; r4; r5; r7 ].
Definition enter6_odd : prog :=
  ldm6 regs6 0 ++ stm6 regs6 0 ++ ldm6 regs6 12 ++ stm6 regs6 12 ++ [ ldrh r1 AS su; strh r1 AT su ].

(* ---------- the loops ---------- *)

(* KeccakP400_Permute_RoundConstants20: armv7m 430-449, armv6m 410-429; the halfword behind it is the terminator (451 and 431). *)
Record armcode := ArmCode { a_term : N; a_enter_even : prog; a_enter_odd : prog; a_round : nat -> nat -> prog }.
Definition armv7m : armcode := ArmCode 0 enter7_even enter7_odd round7.
Definition armv6m : armcode := ArmCode 0xFF [] enter6_odd round6.

Section Arm.
  Variable A : armcode.
  Definition a_table : list N := KeccakF400RoundConstants ++ [a_term A].
  (* One KeccakRound with the constant at position i of the table; None: i is outside the table. *)
  Definition a_step (X Y i : nat) (e : env) : option env :=
    match nth_error a_table i with Some c => Some (run (a_round A X Y) (upd_nth e aRC c)) | None => None end.
  (* RoundOdd followed by the test of the next constant: armv7m 421-425, armv6m 436-442. Then RoundLoop, armv7m 419-420, armv6m 433-435.
     (armv6m keeps the position of the first of two constants and adds 0 or 2 bytes.) *)
  Fixpoint a_odd (fuel : nat) (i : nat) (e : env) : option env :=
    match fuel with
    | O => None
    | S f =>
      match a_step AT AS i e with
      | None => None
      | Some e =>
        match nth_error a_table (S i) with
        | None => None
        | Some t => if t =? a_term A then Some e else
          match a_step AS AT (S i) e with None => None | Some e => a_odd f (S (S i)) e end
        end
      end
    end.
  (* KeccakP400_Permute_Nrounds: armv7m 376-398, armv6m 358-386. r8 (r7) is the address of the terminator minus 2*nr. *)
  Definition a_perm (nr : N) (e : env) : option env :=
    if 20 <? nr then None else
    let i := (20 - N.to_nat nr)%nat in
    if N.even nr then
      match a_step AS AT i (run (a_enter_even A) e) with None => None | Some e => a_odd 20 (S i) e end
    else a_odd 20 i (run (a_enter_odd A) e).
  (* On the lanes; scr: the stack and the registers before. *)
  Definition a_perm_lanes (scr : list N) (nr : N) (lanes : list N) : option (list N) :=
    match a_perm nr (lanes ++ scr) with Some e => Some (firstn 25 e) | None => None end.
End Arm.
