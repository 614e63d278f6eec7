(* isap.c of the ARM implementations of the Keccak instances (KArm.v) with a measuring device on the permutation: before every call of
   KeccakP400_Permute_Nrounds `note` is run on the address of the state. Apart from `note` these are the four functions of KArm.v with the same
   line numbers; C61_device_off proves that without a device they are that model. The device is not part of /repo. No proofs. *)
From Verif Require Import Base SpecPerm Mem Vocab KIsap KArmPerm KArm RefAead K64Impl KArmImpl.
From Verif Require Import RefIsap.
From Verif Require ApiCode.
Open Scope N_scope.
Open Scope cm_scope.

Section KArmProbe.
  Variable A : armcode.
  Variable scr : st -> list N.
  Variable R : krounds.
  Variable cf : cfg.
  Variable note : ptr -> M unit.

  (* KeccakP400_Permute_Nrounds, the device before it. *)
  Definition permute (state : ptr) (nr : N) : M unit := note state ;; arm_Permute A scr cf state nr.

  (* ---------- isap.c ---------- *)

  (* Lines 14-43. *)
  Definition isap_rk (k iv in_ : ptr) (inlen : N) (out : ptr) (outlen : N) : M unit :=
    with_block 50 (fun state =>
      arm_Initialize cf state ;;
      arm_AddBytes state k 0 CRYPTO_KEYBYTES ;;
      arm_AddBytes state iv CRYPTO_KEYBYTES ISAP_IV_SZ ;;
      permute state (krK R) ;;
      for_ 0 (sub32 (u32 (inlen * 8)) 1) (fun i _ =>
        let cur_byte_pos := i / 8 in
        let cur_bit_pos := 7 - i mod 8 in
        b <- load (padd in_ cur_byte_pos) ;;
        xor_byte state (u8 (N.shiftl (N.land (N.shiftr b cur_bit_pos) 1) 7)) ;;
        permute state (krB R)) tt ;;
      b <- load (padd in_ (sub32 inlen 1)) ;;
      xor_byte state (u8 (N.shiftl (N.land b 1) 7)) ;;
      permute state (krK R) ;;
      arm_ExtractBytes state out 0 outlen).

  (* Lines 67-88 and 93-114. *)
  Definition absorb (state src : ptr) (len : N) : M unit :=
    st <- while_ (S (N.to_nat (len / 18))) (fun st => 18 <=? snd st)
            (fun st => let '(idx16, rem_bytes) := st in
               rep 9 0 (xor_half cf state src idx16) ;;
               permute state (krH R) ;;
               ret (u32 (idx16 + 9), sub32 rem_bytes 18))
            (0, len) ;;
    let '(idx16, rem_bytes) := st in
    let idx8 := u32 (idx16 * 2) in
    for_ 0 rem_bytes (fun i _ => d <- load (padd src (u32 (idx8 + i))) ;; xor_byte (padd state i) d) tt ;;
    xor_byte (padd state rem_bytes) 0x80 ;;
    permute state (krH R).

  (* Lines 49-128. *)
  Definition isap_mac (k npub ad : ptr) (adlen : N) (c : ptr) (clen : N) (tag : ptr) : M unit :=
    with_block 50 (fun state =>
      arm_Initialize cf state ;;
      arm_AddBytes state npub 0 CRYPTO_NPUBBYTES ;;
      arm_AddBytes state ISAP_IV_A CRYPTO_NPUBBYTES ISAP_IV_SZ ;;
      permute state (krH R) ;;
      absorb state ad (u32 adlen) ;;
      xor_byte (padd state 49) 0x01 ;;
      absorb state c (u32 clen) ;;
      with_block 16 (fun y => with_block 16 (fun ka_star =>
        arm_ExtractBytes state y 0 CRYPTO_KEYBYTES ;;
        isap_rk k ISAP_IV_KA y CRYPTO_KEYBYTES ka_star CRYPTO_KEYBYTES ;;
        arm_OverwriteBytes state ka_star 0 CRYPTO_KEYBYTES ;;
        permute state (krH R) ;;
        arm_ExtractBytes state tag 0 CRYPTO_KEYBYTES))).

  (* Lines 134-176. *)
  Definition isap_enc (k npub m : ptr) (mlen : N) (c : ptr) : M unit :=
    let mlen := u32 mlen in
    with_block 50 (fun state =>
      isap_rk k ISAP_IV_KE npub CRYPTO_NPUBBYTES state (50 - CRYPTO_NPUBBYTES) ;;
      arm_OverwriteBytes state npub (50 - CRYPTO_NPUBBYTES) CRYPTO_NPUBBYTES ;;
      st <- while_ (S (N.to_nat (mlen / 18))) (fun st => 18 <=? snd st)
              (fun st => let '(idx16, rem_bytes) := st in
                 permute state (krE R) ;;
                 rep 9 0 (enc_half cf state m c idx16) ;;
                 ret (u32 (idx16 + 9), sub32 rem_bytes 18))
              (0, mlen) ;;
      let '(idx16, rem_bytes) := st in
      if_ (0 <? rem_bytes)
        (permute state (krE R) ;;
         let idx8 := u32 (idx16 * 2) in
         for_ 0 rem_bytes (fun i _ =>
           d <- load (padd m (u32 (idx8 + i))) ;;
           s <- load (padd state i) ;;
           store (padd c (u32 (idx8 + i))) (N.lxor d s)) tt)
        (ret tt)).
End KArmProbe.

(* The device: one number, computed in any way from the 50 bytes at the address of the state, is added to the trace. *)
Definition record (leak : list N -> N) (state : ptr) : M unit := x <- loads_ 50 state ;; emit (EPerm (leak x)).

(* crypto_aead.c (ApiCode.v) over isap.c with the device: isapk128av20 (K128A) and isapk128v20 (K128), opt_32_armv6m and opt_32_armv7m. *)
Definition probed_karm (v : variant) (f : arm_file) (scr : st -> list N) (leak : list N -> N) (cf : cfg) : aead :=
  Aead (ApiCode.crypto_aead_encrypt (isap_enc (arm_code f) scr (k_rounds v) cf (record leak)) (isap_mac (arm_code f) scr (k_rounds v) cf (record leak)) cf)
       (ApiCode.crypto_aead_decrypt (isap_enc (arm_code f) scr (k_rounds v) cf (record leak)) (isap_mac (arm_code f) scr (k_rounds v) cf (record leak)) cf).
