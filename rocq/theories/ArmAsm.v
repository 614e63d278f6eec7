(* The programs KeccakP-400-armv7m-le-gcc.s and KeccakP-400-armv6m-le-gcc.s (crypto_aead/isapk128av20 and crypto_aead/isapk128v20, directories
   opt_32_armv7m and opt_32_armv6m; the same two files in both instances), every function, instruction by instruction, for the machine of ArmIsa.v.
   Definitions only. A file is a list of basic blocks; a label of the source is a position in the list, and falling through to the next block is
   written out. Alignment directives and the nop of armv6m 386 are left out. *)
From Verif Require Import Base ArmIsa.
Open Scope N_scope.

(* Mnemonics; a final s means that the flags are set, a final i an immediate operand. *)
Definition MOV d m := IDp false DMov d 0 (Rg m).
Definition MOVSi d c := IDp true DMov d 0 (Im c).
Definition EOR d n m := IDp false DEor d n (Rg m).
Definition EORS d n m := IDp true DEor d n (Rg m).
Definition ORRS d n m := IDp true DOrr d n (Rg m).
Definition BIC d n m := IDp false DBic d n (Rg m).
Definition BICS d n m := IDp true DBic d n (Rg m).
Definition ADDS d n m := IDp true DAdd d n (Rg m).
Definition ADDi d n c := IDp false DAdd d n (Im c).
Definition ADDSi d n c := IDp true DAdd d n (Im c).
Definition SUBi d n c := IDp false DSub d n (Im c).
Definition SUBSi d n c := IDp true DSub d n (Im c).
Definition SUBS d n m := IDp true DSub d n (Rg m).
Definition LSLi d m c := IDp false DMov d 0 (Sf m (LSL c)).
Definition LSLSi d m c := IDp true DMov d 0 (Sf m (LSL c)).
Definition LSRi d m c := IDp false DMov d 0 (Sf m (LSR c)).
Definition LSRSi d m c := IDp true DMov d 0 (Sf m (LSR c)).
Definition UXTH d m := IUxth d (Rg m).
Definition LDR := ILdr 4.
Definition LDRH := ILdr 2.
Definition STRH := IStr 2.

(* Registers. *)
Definition r0 : nat := 0. Definition r1 : nat := 1. Definition r2 : nat := 2. Definition r3 : nat := 3. Definition r4 : nat := 4.
Definition r5 : nat := 5. Definition r6 : nat := 6. Definition r7 : nat := 7. Definition r8 : nat := 8. Definition r9 : nat := 9.
Definition r10 : nat := 10. Definition r11 : nat := 11. Definition r12 : nat := 12. Definition sp : nat := 13. Definition lr : nat := 14.

(* armv7m 29-53, armv6m 27-51 *)
Definition _ba := 0*2. Definition _be := 1*2. Definition _bi := 2*2. Definition _bo := 3*2. Definition _bu := 4*2.
Definition _ga := 5*2. Definition _ge := 6*2. Definition _gi := 7*2. Definition _go := 8*2. Definition _gu := 9*2.
Definition _ka := 10*2. Definition _ke := 11*2. Definition _ki := 12*2. Definition _ko := 13*2. Definition _ku := 14*2.
Definition _ma := 15*2. Definition _me := 16*2. Definition _mi := 17*2. Definition _mo := 18*2. Definition _mu := 19*2.
Definition _sa := 20*2. Definition _se := 21*2. Definition _si := 22*2. Definition _so := 23*2. Definition _su := 24*2.

(* ---------- functions with the same text in both files: blocks 0-18 ---------- *)

Definition StaticInitialize : nat := 0.
Definition Initialize : nat := 1.
Definition AddByte : nat := 2.
Definition AddBytes : nat := 3.
Definition OverwriteBytes : nat := 8.
Definition ExtractBytes : nat := 12.
Definition ExtractAndAddBytes : nat := 16.
Definition OverwriteWithZeroes : nat := 19.

Definition common : code :=
  [ (* 0: KeccakP400_StaticInitialize, armv7m 216-217, armv6m 206-207 *)
    ([], BxLr);
    (* 1: KeccakP400_Initialize, armv7m 227-236, armv6m 217-226 *)
    ([ MOVSi r1 0; MOVSi r2 0; MOVSi r3 0; IStm r0 [r1; r2; r3]; IStm r0 [r1; r2; r3]; IStm r0 [r1; r2; r3]; IStm r0 [r1; r2; r3];
       STRH r1 r0 0 ], BxLr);
    (* 2: KeccakP400_AddByte, armv7m 246-250, armv6m 236-240 *)
    ([ ILdrbR r3 r0 r2; EORS r3 r3 r1; IStrbR r3 r0 r2 ], BxLr);
    (* 3: KeccakP400_AddBytes, armv7m 261-263, armv6m 250-252 *)
    ([ SUBSi r3 r3 1 ], Br CC 6 4);
    (* 4: armv7m 264-265, armv6m 253-254 *)
    ([ ADDS r0 r0 r2; IPush [r4; lr] ], Jmp 5);
    (* 5: KeccakP400_AddBytes_Loop, armv7m 266-272, armv6m 255-261 *)
    ([ ILdrbR r2 r1 r3; ILdrbR r4 r0 r3; EORS r2 r2 r4; IStrbR r2 r0 r3; SUBSi r3 r3 1 ], Br CS 5 7);
    (* 6: KeccakP400_AddBytes_Exit, armv7m 274-275, armv6m 263-264 *)
    ([], BxLr);
    (* 7: armv7m 273, armv6m 262 *)
    ([], PopPc [r4]);
    (* 8: KeccakP400_OverwriteBytes, armv7m 285-287, armv6m 274-276 *)
    ([ SUBSi r3 r3 1 ], Br CC 11 9);
    (* 9: armv7m 288, armv6m 277 *)
    ([ ADDS r0 r0 r2 ], Jmp 10);
    (* 10: KeccakP400_OverwriteBytes_Loop, armv7m 289-293, armv6m 278-282 *)
    ([ ILdrbR r2 r1 r3; IStrbR r2 r0 r3; SUBSi r3 r3 1 ], Br CS 10 11);
    (* 11: KeccakP400_OverwriteBytes_Exit *)
    ([], BxLr);
    (* 12: KeccakP400_ExtractBytes, armv7m 331-333, armv6m 313-315 *)
    ([ SUBSi r3 r3 1 ], Br CC 15 13);
    (* 13: armv7m 334, armv6m 316 *)
    ([ ADDS r0 r0 r2 ], Jmp 14);
    (* 14: KeccakP400_ExtractBytes_Loop, armv7m 335-339, armv6m 317-321 *)
    ([ ILdrbR r2 r0 r3; IStrbR r2 r1 r3; SUBSi r3 r3 1 ], Br CS 14 15);
    (* 15: KeccakP400_ExtractBytes_Exit *)
    ([], BxLr);
    (* 16: KeccakP400_ExtractAndAddBytes, armv7m 351-356, armv6m 333-338 *)
    ([ IPush [r4; r5]; ADDS r0 r0 r3; LDR r3 sp 8; SUBSi r3 r3 1 ], Br CC 18 17);
    (* 17: KeccakP400_ExtractAndAddBytes_Loop, armv7m 357-363, armv6m 339-345 *)
    ([ ILdrbR r5 r0 r3; ILdrbR r4 r1 r3; EORS r5 r5 r4; IStrbR r5 r2 r3; SUBSi r3 r3 1 ], Br CS 17 18);
    (* 18: KeccakP400_ExtractAndAddBytes_Exit, armv7m 364-366, armv6m 346-348 *)
    ([ IPop [r4; r5] ], BxLr) ].

(* ---------- armv7m ---------- *)

(* KeccakP400_OverwriteWithZeroes, armv7m 305-321: blocks 19-23 *)
Definition zeroes7 : code :=
  [ ([ MOVSi r3 0; LSRSi r2 r1 2 ], Br EQ 21 20);                    (* 19: 305-308 *)
    ([ IStrP 4 r3 r0 4; SUBSi r2 r2 1 ], Br NE 20 21);               (* 20: _Loop2Lanes, 309-312 *)
    ([ IDp true DAnd r1 r1 (Im 3) ], Br EQ 23 22);                   (* 21: _Bytes, 313-315 *)
    ([ IStrP 1 r3 r0 1; SUBSi r1 r1 1 ], Br NE 22 23);               (* 22: _LoopBytes, 316-319 *)
    ([], BxLr) ].                                                    (* 23: _Exit, 320-321 *)

Definition xor5_7 (result ptr : nat) (b g k m : N) (rs : nat) : list instr :=       (* 55-64 *)
  [ LDRH result ptr b; LDRH r6 ptr g; EOR result result rs; LDRH rs ptr k; EOR result result r6; LDRH r6 ptr m; EOR result result rs;
    EOR result result r6 ].
Definition xor5D_7 (resultL resultH ptr : nat) (b g k m : N) (rsL rsH : nat) : list instr :=       (* 66-78 *)
  [ IBfi16 rsL rsH; LDR resultL ptr b; LDR r6 ptr g; EOR resultL resultL rsL; LDR rsL ptr k; EOR resultL resultL r6; LDR r6 ptr m;
    EOR resultL resultL rsL; EOR resultL resultL r6; LSRi resultH resultL 16; UXTH resultL resultL ].
Definition xorrol_7 (b yy : nat) (rr : N) : list instr :=       (* 80-88 *)
  EOR b b yy :: if negb (rr =? 8) then [ LSLi b b rr; IDp false DOrr b b (Sf b (LSR 16)) ] else [ IRev16 b b ].
Definition rolxor_7 (d a b : nat) : list instr :=       (* 90-94 *)
  [ IDp false DEor d a (Sf b (LSL 1)); IDp false DEor d d (Sf b (LSR 15)); UXTH d d ].
Definition xandnot_7 (resptr : nat) (resofs : N) (aa bb cc temp : nat) : list instr :=       (* 96-100 *)
  [ BIC temp cc bb; EOR temp temp aa; STRH temp resptr resofs ].
Definition xandnotRC_7 (resptr : nat) (resofs : N) (aa bb cc : nat) : list instr :=       (* 102-108 *)
  [ ILdrP 2 r6 r8 2; BIC cc cc bb; EOR cc cc r6; EOR cc cc aa; STRH cc resptr resofs ].
Definition loads5 (ptr : nat) (a b c d e : N) : list instr :=
  [ LDRH r1 ptr a; LDRH r2 ptr b; LDRH r3 ptr c; LDRH r4 ptr d; LDRH r5 ptr e ].
(* KeccakRound, 110-207 *)
Definition KeccakRound7 (sOut sIn : nat) : list instr :=
  xor5D_7 r1 r2 sIn _ba _ga _ka _ma r9 r10 ++ xor5D_7 r3 r4 sIn _bi _gi _ki _mi r11 r12 ++
  rolxor_7 r9 r7 r2 ++ rolxor_7 r10 r1 r3 ++ rolxor_7 r11 r2 r4 ++ rolxor_7 r12 r3 r7 ++ rolxor_7 lr r4 r1 ++
  [ LDRH r1 sIn _ba; LDRH r2 sIn _ge; LDRH r3 sIn _ki; LDRH r4 sIn _mo; EOR r1 r1 r9 ] ++
  xorrol_7 r2 r10 12 ++ xorrol_7 r3 r11 11 ++ xorrol_7 r4 r12 5 ++ xorrol_7 r5 lr 14 ++
  xandnot_7 sOut _be r2 r3 r4 r6 ++ xandnot_7 sOut _bi r3 r4 r5 r6 ++ xandnot_7 sOut _bo r4 r5 r1 r6 ++ xandnot_7 sOut _bu r5 r1 r2 r7 ++
  xandnotRC_7 sOut _ba r1 r2 r3 ++
  loads5 sIn _bo _gu _ka _me _si ++
  xorrol_7 r1 r12 12 ++ xorrol_7 r2 lr 4 ++ xorrol_7 r3 r9 3 ++ xorrol_7 r4 r10 13 ++ xorrol_7 r5 r11 13 ++
  xandnot_7 sOut _ga r1 r2 r3 r6 ++ xandnot_7 sOut _ge r2 r3 r4 r6 ++ xandnot_7 sOut _gi r3 r4 r5 r6 ++ xandnot_7 sOut _go r4 r5 r1 r6 ++
  xandnot_7 sOut _gu r5 r1 r2 r6 ++ [ EOR r7 r7 r6 ] ++
  loads5 sIn _be _gi _ko _mu _sa ++
  xorrol_7 r1 r10 1 ++ xorrol_7 r2 r11 6 ++ xorrol_7 r3 r12 9 ++ xorrol_7 r4 lr 8 ++ xorrol_7 r5 r9 2 ++
  xandnot_7 sOut _ka r1 r2 r3 r6 ++ xandnot_7 sOut _ke r2 r3 r4 r6 ++ xandnot_7 sOut _ki r3 r4 r5 r6 ++ xandnot_7 sOut _ko r4 r5 r1 r6 ++
  xandnot_7 sOut _ku r5 r1 r2 r6 ++ [ EOR r7 r7 r6 ] ++
  loads5 sIn _bu _ga _ke _mi _so ++
  xorrol_7 r1 lr 11 ++ xorrol_7 r2 r9 4 ++ xorrol_7 r3 r10 10 ++ xorrol_7 r4 r11 15 ++ xorrol_7 r5 r12 8 ++
  xandnot_7 sOut _ma r1 r2 r3 r6 ++ xandnot_7 sOut _me r2 r3 r4 r6 ++ xandnot_7 sOut _mi r3 r4 r5 r6 ++ xandnot_7 sOut _mo r4 r5 r1 r6 ++
  xandnot_7 sOut _mu r5 r1 r2 r6 ++ [ EOR r7 r7 r6 ] ++
  loads5 sIn _bi _go _ku _ma _se ++
  xorrol_7 r1 r11 14 ++ xorrol_7 r2 r12 7 ++ xorrol_7 r3 lr 7 ++ xorrol_7 r4 r9 9 ++ xorrol_7 r5 r10 2 ++
  xandnot_7 sOut _sa r1 r2 r3 r9 ++ xandnot_7 sOut _se r2 r3 r4 r10 ++ xandnot_7 sOut _si r3 r4 r5 r11 ++ xandnot_7 sOut _so r4 r5 r1 r12 ++
  [ BIC r1 r2 r1; EOR r5 r5 r1; EOR r7 r7 r5; UXTH r7 r7; STRH r5 sOut _su; UXTH r5 r5 ].

Definition saved7 : list nat := [r4; r5; r6; r7; r8; r9; r10; r11; r12].
Definition Permute_Nrounds7 : nat := 24.
Definition Permute_20rounds7 : nat := 26.
Definition odd7 : list instr :=      (* 382-397 *)
  [ MOV r1 sp; ILdm r0 [r2; r3; r4; r5; r11; r12]; IStm r1 [r2; r3; r4; r5; r11; r12]; ILdm r0 [r2; r3; r4; r5; r11; r12];
    IStm r1 [r2; r3; r4; r5; r11; r12]; SUBi r0 r0 (2*24); LDRH lr r0 _su; STRH lr sp _su; UXTH r9 r11; IUxth r10 (Sf r11 (ROR 16));
    UXTH r11 r12; LSRi r12 r12 16; MOV r5 lr ] ++ xor5_7 r7 r0 _bu _gu _ku _mu lr.
Definition even7 : list instr :=     (* KeccakP400_PermuteIntern, 411-418 *)
  [ LDRH r9 r0 _sa; LDRH r10 r0 _se; LDRH r11 r0 _si; LDRH lr r0 _su; LDRH r12 r0 _so; MOV r5 lr ] ++ xor5_7 r7 r0 _bu _gu _ku _mu lr.
(* KeccakP400_Permute_Nrounds and KeccakP400_Permute_20rounds: blocks 24-30 *)
Definition perm7 : code :=
  [ ([ IPush (saved7 ++ [lr]); SUBi sp sp (2*25+6); IAdr r8 40; IDp false DSub r8 r8 (Sf r1 (LSL 1)); LSLSi r1 r1 31 ], Br EQ 27 25);   (* 24: 376-381 *)
    (odd7, Jmp 29);                                                                                        (* 25: 382-398 *)
    ([ IPush (saved7 ++ [lr]); SUBi sp sp (2*25+6); IAdr r8 0 ], Jmp 27);                                  (* 26: 407-410 *)
    (even7, Jmp 28);                                                                                       (* 27: 411-418 *)
    (KeccakRound7 sp r0, Jmp 29);                                                                          (* 28: _RoundLoop, 419-420 *)
    (KeccakRound7 r0 sp ++ [ LDRH r3 r8 0; ICmp r3 (Im 0) ], Br NE 28 30);                                 (* 29: _RoundOdd, 421-425 *)
    ([ ADDi sp sp (2*25+6) ], PopPc saved7) ].                                                             (* 30: 426-427 *)

Definition armv7m_s : code := common ++ zeroes7 ++ perm7.

(* ---------- armv6m ---------- *)

(* KeccakP400_OverwriteWithZeroes, armv6m 294-303: blocks 19-21 *)
Definition zeroes6 : code :=
  [ ([ MOVSi r3 0; ICmp r1 (Im 0) ], Br EQ 21 20);                   (* 19: 294-297 *)
    ([ SUBSi r1 r1 1; IStrbR r3 r0 r1 ], Br NE 20 21);               (* 20: _LoopBytes, 298-301 *)
    ([], BxLr) ].                                                    (* 21: _Exit, 302-303 *)

Definition xor5_6 (result ptr : nat) (b g k m s : N) : list instr :=       (* 53-63 *)
  [ LDRH result ptr b; LDRH r7 ptr g; EORS result result r7; LDRH r7 ptr k; EORS result result r7; LDRH r7 ptr m; EORS result result r7;
    LDRH r7 ptr s; EORS result result r7 ].
Definition xorrol_6 (b yy : nat) (rr : N) : list instr :=       (* 65-74 *)
  [ MOV r7 yy; EORS b b r7 ] ++ if negb (rr =? 0) then [ LSLSi r7 b rr; LSRSi b b (16 - rr); ORRS b b r7; UXTH b b ] else [].
Definition rolxor_6 (d a b rot : nat) : list instr :=       (* 76-82 *)
  [ ISxth r7 b; IRorR r7 rot; EORS r7 r7 a; UXTH r7 r7; MOV d r7 ].
Definition xandnot_6 (resptr : nat) (resofs : N) (aa bb cc temp : nat) : list instr :=       (* 84-89 *)
  [ MOV temp cc; BICS temp temp bb; EORS temp temp aa; STRH temp resptr resofs ].
Definition xandnotRC_6 (resptr : nat) (resofs : N) (aa bb cc : nat) (rco : N) : list instr :=       (* 91-98 *)
  [ BICS cc cc bb; EORS cc cc aa; MOV r7 r8; LDRH bb r7 rco; EORS cc cc bb; STRH cc resptr resofs ].
(* KeccakRound, 100-197: the part between push and pop of sOut, and the part behind *)
Definition theta6 (sOut sIn : nat) : list instr :=
  xor5_6 r1 sIn _ba _ga _ka _ma _sa ++ xor5_6 r2 sIn _be _ge _ke _me _se ++ xor5_6 r3 sIn _bi _gi _ki _mi _si ++
  xor5_6 r4 sIn _bo _go _ko _mo _so ++ xor5_6 r5 sIn _bu _gu _ku _mu _su ++
  rolxor_6 r9 r5 r2 sOut ++ rolxor_6 r10 r1 r3 sOut ++ rolxor_6 r11 r2 r4 sOut ++ rolxor_6 r12 r3 r5 sOut ++ rolxor_6 lr r4 r1 sOut.
Definition rho6 (sOut sIn : nat) (rco : N) : list instr :=
  loads5 sIn _bo _gu _ka _me _si ++
  xorrol_6 r1 r12 12 ++ xorrol_6 r2 lr 4 ++ xorrol_6 r3 r9 3 ++ xorrol_6 r4 r10 13 ++ xorrol_6 r5 r11 13 ++
  xandnot_6 sOut _ga r1 r2 r3 r7 ++ xandnot_6 sOut _ge r2 r3 r4 r7 ++ xandnot_6 sOut _gi r3 r4 r5 r7 ++ xandnot_6 sOut _go r4 r5 r1 r7 ++
  xandnot_6 sOut _gu r5 r1 r2 r7 ++
  loads5 sIn _be _gi _ko _mu _sa ++
  xorrol_6 r1 r10 1 ++ xorrol_6 r2 r11 6 ++ xorrol_6 r3 r12 9 ++ xorrol_6 r4 lr 8 ++ xorrol_6 r5 r9 2 ++
  xandnot_6 sOut _ka r1 r2 r3 r7 ++ xandnot_6 sOut _ke r2 r3 r4 r7 ++ xandnot_6 sOut _ki r3 r4 r5 r7 ++ xandnot_6 sOut _ko r4 r5 r1 r7 ++
  xandnot_6 sOut _ku r5 r1 r2 r7 ++
  loads5 sIn _bu _ga _ke _mi _so ++
  xorrol_6 r1 lr 11 ++ xorrol_6 r2 r9 4 ++ xorrol_6 r3 r10 10 ++ xorrol_6 r4 r11 15 ++ xorrol_6 r5 r12 8 ++
  xandnot_6 sOut _ma r1 r2 r3 r7 ++ xandnot_6 sOut _me r2 r3 r4 r7 ++ xandnot_6 sOut _mi r3 r4 r5 r7 ++ xandnot_6 sOut _mo r4 r5 r1 r7 ++
  xandnot_6 sOut _mu r5 r1 r2 r7 ++
  loads5 sIn _bi _go _ku _ma _se ++
  xorrol_6 r1 r11 14 ++ xorrol_6 r2 r12 7 ++ xorrol_6 r3 lr 7 ++ xorrol_6 r4 r9 9 ++ xorrol_6 r5 r10 2 ++
  xandnot_6 sOut _sa r1 r2 r3 r7 ++ xandnot_6 sOut _se r2 r3 r4 r7 ++ xandnot_6 sOut _si r3 r4 r5 r7 ++ xandnot_6 sOut _so r4 r5 r1 r7 ++
  xandnot_6 sOut _su r5 r1 r2 r7 ++
  loads5 sIn _ba _ge _ki _mo _su ++
  xorrol_6 r1 r9 0 ++ xorrol_6 r2 r10 12 ++ xorrol_6 r3 r11 11 ++ xorrol_6 r4 r12 5 ++ xorrol_6 r5 lr 14 ++
  xandnot_6 sOut _be r2 r3 r4 r7 ++ xandnot_6 sOut _bi r3 r4 r5 r7 ++ xandnot_6 sOut _bo r4 r5 r1 r7 ++ xandnot_6 sOut _bu r5 r1 r2 r7 ++
  xandnotRC_6 sOut _ba r1 r2 r3 rco.
Definition KeccakRound6 (sOut sIn : nat) (rco : N) : list instr :=
  [ IPush [sOut]; MOVSi sOut 31 ] ++ theta6 sOut sIn ++ [ IPop [sOut] ] ++ rho6 sOut sIn rco.

Definition Permute_Nrounds6 : nat := 22.
Definition Permute_20rounds6 : nat := 25.
(* 358-366 = 396-404 *)
Definition enter6 : list instr :=
  [ IPush [r4; r5; r6; lr]; MOV r2 r8; MOV r3 r9; MOV r4 r10; MOV r5 r11; MOV r6 r12; IPush [r2; r3; r4; r5; r6; r7]; SUBi sp sp (25*2+6);
    MOV r6 sp ].
Definition odd6 : list instr :=      (* 372-382 *)
  [ SUBSi r7 r7 2; MOV r8 r7; ILdm r0 [r1; r2; r3; r4; r5; r7]; IStm r6 [r1; r2; r3; r4; r5; r7]; ILdm r0 [r1; r2; r3; r4; r5; r7];
    IStm r6 [r1; r2; r3; r4; r5; r7]; SUBSi r0 r0 48; SUBSi r6 r6 48; LDRH r1 r0 _su; STRH r1 r6 _su ].
(* KeccakP400_Permute_Nrounds and KeccakP400_Permute_20rounds: blocks 22-29 *)
Definition perm6 : code :=
  [ (enter6 ++ [ IAdr r7 40; SUBS r7 r7 r1; SUBS r7 r7 r1; LSLSi r1 r1 31 ], Br EQ 24 23);                 (* 22: 358-371 *)
    (odd6, Jmp 27);                                                                                        (* 23: 372-383 *)
    ([], Jmp 26);                                                                                          (* 24: _GoRoundLoop, 384-385 *)
    (enter6 ++ [ IAdr r7 0 ], Jmp 26);                                                                     (* 25: 396-407 *)
    (MOV r8 r7 :: KeccakRound6 r6 r0 0, Jmp 27);                                                           (* 26: _RoundLoop, 433-435 *)
    (KeccakRound6 r0 r6 2 ++ [ ADDSi r7 r7 4; LDRH r1 r7 0; ICmp r1 (Im 0xFF) ], Br EQ 29 28);             (* 27: _RoundOdd, 436-441 *)
    ([], Jmp 26);                                                                                          (* 28: 442 *)
    ([ ADDi sp sp (25*2+6); IPop [r1; r2; r3; r4; r5; r7]; MOV r8 r1; MOV r9 r2; MOV r10 r3; MOV r11 r4; MOV r12 r5 ], PopPc [r4; r5; r6]) ]. (* 29: _Done, 443-450 *)

Definition armv6m_s : code := common ++ zeroes6 ++ perm6.

(* KeccakP400_Permute_RoundConstants20 and the terminator behind it (KeccakP400_Permute_RoundConstants), as halfwords: armv7m 429-451, armv6m 409-431 *)
Definition constants20 : list N :=
  [ 0x0001; 0x8082; 0x808a; 0x8000; 0x808b; 0x0001; 0x8081; 0x8009; 0x008a; 0x0088;
    0x8009; 0x000a; 0x808b; 0x008b; 0x8089; 0x8003; 0x8002; 0x0080; 0x800a; 0x000a ].
Definition table7 : list N := constants20 ++ [ 0 ].
Definition table6 : list N := constants20 ++ [ 0xFF ].
