(* Model of the four ARM implementations of the Keccak instances, isapk128av20 and isapk128v20, directories opt_32_armv6m and opt_32_armv7m:
   isap.c (the same text in all four) and the functions of KeccakP-400-armv6m-le-gcc.s / KeccakP-400-armv7m-le-gcc.s that it
   calls (the same two files in both instances). No proofs.
   The state is a local array of 50 bytes in memory. unsigned long, unsigned int and uint32_t have 32 bits; a length given as unsigned long
   long loses its upper half at the call. Line numbers of isap.c are those of isapk128av20/opt_32_armv7m. crypto_aead.c has the common text
   (ApiCode.v).
   Simplified: KeccakP400_Permute_Nrounds reads the lanes before the first instruction and writes them after the last one; the state is
   always 4-aligned in the C code, a call with another address is undefined here. Saving and restoring registers is left out. *)
From Verif Require Import Base SpecPerm Mem KIsap KArmPerm.
From Verif Require Import RefIsap.
Open Scope N_scope.
Open Scope cm_scope.

Definition sub32 (x y : N) : N := (x + 2 ^ 32 - y) mod 2 ^ 32.

(* n statements in a row, for the numbers from j on. *)
Fixpoint rep (n : nat) (j : N) (f : N -> M unit) : M unit :=
  match n with
  | O => ret tt
  | S n' => f j ;; rep n' (j + 1) f
  end.

(* state[i] ^= v. *)
Definition xor_byte (p : ptr) (v : N) : M unit := a <- load p ;; store p (N.lxor a v).

Section KArm.
  Variable A : armcode.             (* the assembler file *)
  Variable scr : st -> list N.      (* what registers and stack hold at a call of the permutation *)
  Variable R : krounds.             (* ISAP_sB, ISAP_sE, ISAP_sH, ISAP_sK of isap.h *)
  Variable cf : cfg.

  (* ---------- the assembler files ---------- *)

  (* KeccakP400_Initialize, armv7m 227-236, armv6m 217-225: twelve words by stmia, one halfword. *)
  Definition arm_Initialize (state : ptr) : M unit :=
    rep 12 0 (fun j => storen cf [0; 0; 0; 0] (padd state (4 * j))) ;; storen cf [0; 0] (padd state 48).

  (* KeccakP400_AddBytes, armv7m 261-276, armv6m 250-265: from the last byte to the first. *)
  Definition arm_AddBytes (state data : ptr) (offset length : N) : M unit :=
    for_ 0 length (fun i _ =>
      let r3 := length - 1 - i in
      d <- load (padd data r3) ;;
      a <- load (padd (padd state offset) r3) ;;
      store (padd (padd state offset) r3) (N.lxor d a)) tt.

  (* The loop common to the next two functions. *)
  Definition arm_copy (dst src : ptr) (length : N) : M unit :=
    for_ 0 length (fun i _ =>
      let r3 := length - 1 - i in
      d <- load (padd src r3) ;; store (padd dst r3) d) tt.
  (* KeccakP400_OverwriteBytes, armv7m 285-296, armv6m 274-285. *)
  Definition arm_OverwriteBytes (state data : ptr) (offset length : N) : M unit := arm_copy (padd state offset) data length.
  (* KeccakP400_ExtractBytes, armv7m 331-342, armv6m 313-324. *)
  Definition arm_ExtractBytes (state data : ptr) (offset length : N) : M unit := arm_copy data (padd state offset) length.

  (* KeccakP400_Permute_Nrounds, armv7m 376-, armv6m 358-; the instructions are in KArmPerm.v. *)
  Definition arm_Permute (state : ptr) (nr : N) : M unit :=
    if aligned cf state 4 then
      emit (EPerm nr) ;;
      ws <- load_lanes cf 25 state ;;
      fun z => match a_perm_lanes A (scr z) nr ws with
               | Some ws' => store_lanes cf ws' state z
               | None => UB
               end
    else fail_ub.

  (* ---------- isap.c ---------- *)

  (* Lines 14-43. *)
  Definition isap_rk (k iv in_ : ptr) (inlen : N) (out : ptr) (outlen : N) : M unit :=
    with_block 50 (fun state =>
      arm_Initialize state ;;
      arm_AddBytes state k 0 CRYPTO_KEYBYTES ;;
      arm_AddBytes state iv CRYPTO_KEYBYTES ISAP_IV_SZ ;;
      arm_Permute state (krK R) ;;
      for_ 0 (sub32 (u32 (inlen * 8)) 1) (fun i _ =>
        let cur_byte_pos := i / 8 in
        let cur_bit_pos := 7 - i mod 8 in
        b <- load (padd in_ cur_byte_pos) ;;
        xor_byte state (u8 (N.shiftl (N.land (N.shiftr b cur_bit_pos) 1) 7)) ;;
        arm_Permute state (krB R)) tt ;;
      b <- load (padd in_ (sub32 inlen 1)) ;;
      xor_byte state (u8 (N.shiftl (N.land b 1) 7)) ;;
      arm_Permute state (krK R) ;;
      arm_ExtractBytes state out 0 outlen).

  (* One of the lines 70-78, 96-104: state16[j] ^= src16[idx16+j]. *)
  Definition xor_half (state src : ptr) (idx16 j : N) : M unit :=
    s <- loadn cf 2 (padd state (2 * j)) ;;
    d <- loadn cf 2 (padd src (2 * u32 (idx16 + j))) ;;
    storen cf (word_le 2 (N.lxor (le_word s) (le_word d))) (padd state (2 * j)).

  (* Lines 67-88 and 93-114. *)
  Definition absorb (state src : ptr) (len : N) : M unit :=
    st <- while_ (S (N.to_nat (len / 18))) (fun st => 18 <=? snd st)
            (fun st => let '(idx16, rem_bytes) := st in
               rep 9 0 (xor_half state src idx16) ;;
               arm_Permute state (krH R) ;;
               ret (u32 (idx16 + 9), sub32 rem_bytes 18))
            (0, len) ;;
    let '(idx16, rem_bytes) := st in
    let idx8 := u32 (idx16 * 2) in
    for_ 0 rem_bytes (fun i _ => d <- load (padd src (u32 (idx8 + i))) ;; xor_byte (padd state i) d) tt ;;
    xor_byte (padd state rem_bytes) 0x80 ;;
    arm_Permute state (krH R).

  (* Lines 49-128. *)
  Definition isap_mac (k npub ad : ptr) (adlen : N) (c : ptr) (clen : N) (tag : ptr) : M unit :=
    with_block 50 (fun state =>
      arm_Initialize state ;;
      arm_AddBytes state npub 0 CRYPTO_NPUBBYTES ;;
      arm_AddBytes state ISAP_IV_A CRYPTO_NPUBBYTES ISAP_IV_SZ ;;
      arm_Permute state (krH R) ;;
      absorb state ad (u32 adlen) ;;
      xor_byte (padd state 49) 0x01 ;;
      absorb state c (u32 clen) ;;
      with_block 16 (fun y => with_block 16 (fun ka_star =>
        arm_ExtractBytes state y 0 CRYPTO_KEYBYTES ;;
        isap_rk k ISAP_IV_KA y CRYPTO_KEYBYTES ka_star CRYPTO_KEYBYTES ;;
        arm_OverwriteBytes state ka_star 0 CRYPTO_KEYBYTES ;;
        arm_Permute state (krH R) ;;
        arm_ExtractBytes state tag 0 CRYPTO_KEYBYTES))).

  (* One of the lines 155-163: c16[idx16+j] = m16[idx16+j] ^ state16[j]. *)
  Definition enc_half (state m c : ptr) (idx16 j : N) : M unit :=
    d <- loadn cf 2 (padd m (2 * u32 (idx16 + j))) ;;
    s <- loadn cf 2 (padd state (2 * j)) ;;
    storen cf (word_le 2 (N.lxor (le_word d) (le_word s))) (padd c (2 * u32 (idx16 + j))).

  (* Lines 134-176. *)
  Definition isap_enc (k npub m : ptr) (mlen : N) (c : ptr) : M unit :=
    let mlen := u32 mlen in
    with_block 50 (fun state =>
      isap_rk k ISAP_IV_KE npub CRYPTO_NPUBBYTES state (50 - CRYPTO_NPUBBYTES) ;;
      arm_OverwriteBytes state npub (50 - CRYPTO_NPUBBYTES) CRYPTO_NPUBBYTES ;;
      st <- while_ (S (N.to_nat (mlen / 18))) (fun st => 18 <=? snd st)
              (fun st => let '(idx16, rem_bytes) := st in
                 arm_Permute state (krE R) ;;
                 rep 9 0 (enc_half state m c idx16) ;;
                 ret (u32 (idx16 + 9), sub32 rem_bytes 18))
              (0, mlen) ;;
      let '(idx16, rem_bytes) := st in
      if_ (0 <? rem_bytes)
        (arm_Permute state (krE R) ;;
         let idx8 := u32 (idx16 * 2) in
         for_ 0 rem_bytes (fun i _ =>
           d <- load (padd m (u32 (idx8 + i))) ;;
           s <- load (padd state i) ;;
           store (padd c (u32 (idx8 + i))) (N.lxor d s)) tt)
        (ret tt)).
End KArm.
