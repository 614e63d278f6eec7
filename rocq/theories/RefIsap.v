(* Model of the reference implementation, memory level.
   /repo/crypto_aead/isapxv20/ref: isap.c, crypto_aead.c, permutation.c,
   lib/Ascon-reference/Ascon-reference.c, lib/KeccakP-400-reference/KeccakP-400-reference.c, isap.h, api.h.
   The directories isapa128av20/ref, isapa128v20/ref, isapk128av20/ref, isapk128v20/ref hold the same text with the
   Permutation_ wrappers replaced by direct calls. *)
From Verif Require Import Base Prog SpecPerm RefPerm Mem.
Open Scope N_scope.
Open Scope cm_scope.

(* ---------- state access, both libraries ---------- *)

(* Ascon-reference.c 32-34 (SZ = 40), KeccakP-400-reference.c 63-66 (SZ = 50). *)
Definition lib_Initialize (SZ : N) (state : ptr) : M unit := memset state 0 SZ.

(* The asserts of lines 40-41 / 82-83: unsigned int arithmetic. *)
Definition lib_asserts (cf : cfg) (SZ offset length : N) : M unit :=
  assert_ cf (offset <? SZ) ;; assert_ cf (u32 (offset + length) <=? SZ).

(* Ascon-reference.c 38-45, KeccakP-400-reference.c 78-86. *)
Definition lib_AddBytes (cf : cfg) (SZ : N) (state data : ptr) (offset length : N) : M unit :=
  lib_asserts cf SZ offset length ;;
  for_ 0 length (fun i _ =>
    a <- load (padd state (u32 (offset + i))) ;;
    d <- load (padd data i) ;;
    store (padd state (u32 (offset + i))) (N.lxor a d)) tt.

(* KeccakP-400-reference.c 70-74. *)
Definition KeccakP400_AddByte (cf : cfg) (state : ptr) (byte offset : N) : M unit :=
  assert_ cf (offset <? 50) ;;
  a <- load (padd state offset) ;; store (padd state offset) (N.lxor a byte).

(* Ascon-reference.c 49-56 (byte loop). *)
Definition Ascon_OverwriteBytes (cf : cfg) (state data : ptr) (offset length : N) : M unit :=
  lib_asserts cf 40 offset length ;;
  for_ 0 length (fun i _ =>
    d <- load (padd data i) ;;
    store (padd state (u32 (offset + i))) d) tt.

(* KeccakP-400-reference.c 90-95 (memcpy). *)
Definition KeccakP400_OverwriteBytes (cf : cfg) (state data : ptr) (offset length : N) : M unit :=
  lib_asserts cf 50 offset length ;;
  memcpy (padd state offset) data length.

(* KeccakP-400-reference.c 99-103. *)
Definition KeccakP400_OverwriteWithZeroes (cf : cfg) (state : ptr) (byteCount : N) : M unit :=
  assert_ cf (byteCount <=? 50) ;; memset state 0 byteCount.

(* Ascon-reference.c 97-101, KeccakP-400-reference.c 219-224. *)
Definition lib_ExtractBytes (cf : cfg) (SZ : N) (state data : ptr) (offset length : N) : M unit :=
  lib_asserts cf SZ offset length ;;
  memcpy data (padd state offset) length.

(* KeccakP-400-reference.c 228-236. *)
Definition KeccakP400_ExtractAndAddBytes (cf : cfg) (state input output : ptr) (offset length : N) : M unit :=
  lib_asserts cf 50 offset length ;;
  for_ 0 length (fun i _ =>
    d <- load (padd input i) ;;
    a <- load (padd state (u32 (offset + i))) ;;
    store (padd output i) (N.lxor d a)) tt.

(* ---------- permutations on the state in memory ---------- *)

(* Ascon-reference.c 15-20. *)
Definition load64 (S_ : ptr) : M N :=
  for_ 0 8 (fun i x =>
    b <- load (padd S_ i) ;; ret (N.lor x (N.shiftl b (56 - i * 8)))) 0.
(* Ascon-reference.c 24-28. *)
Definition store64 (S_ : ptr) (x : N) : M unit :=
  for_ 0 8 (fun i _ => store (padd S_ i) (u8 (N.shiftr x (56 - i * 8)))) tt.

(* Ascon-reference.c 60-93. The round loop (71-87) is the word program of RefPerm.v. *)
Definition Ascon_Permute_Nrounds (cf : cfg) (S_ : ptr) (rounds : N) : M unit :=
  assert_ cf (rounds <=? 12) ;;
  emit (EPerm rounds) ;;
  a <- load64 (padd S_ 0) ;; b <- load64 (padd S_ 8) ;; c <- load64 (padd S_ 16) ;;
  d <- load64 (padd S_ 24) ;; e <- load64 (padd S_ 32) ;;
  let w := ascon_ref_words rounds [a; b; c; d; e] in
  store64 (padd S_ 0) (nth 0 w 0) ;; store64 (padd S_ 8) (nth 1 w 0) ;; store64 (padd S_ 16) (nth 2 w 0) ;;
  store64 (padd S_ 24) (nth 3 w 0) ;; store64 (padd S_ 32) (nth 4 w 0).

(* The 25 lanes of the state as little-endian 16-bit objects. *)
Fixpoint load_lanes (cf : cfg) (n : nat) (p : ptr) : M (list N) :=
  match n with
  | O => ret []
  | S n' => b <- loadn cf 2 p ;; ws <- load_lanes cf n' (padd p 2) ;; ret (le_word b :: ws)
  end.
Fixpoint store_lanes (cf : cfg) (ws : list N) (p : ptr) : M unit :=
  match ws with
  | [] => ret tt
  | w :: ws' => storen cf (word_le 2 w) p ;; store_lanes cf ws' (padd p 2)
  end.
(* KeccakP-400-reference.c 115-128 (little-endian branch), 145-159. Simplified: the lanes are read once before the
   rounds and written once after them, instead of at every step; the set of addresses touched is the same. *)
Definition KeccakP400_Permute_Nrounds (cf : cfg) (state : ptr) (nrounds : N) : M unit :=
  emit (EPerm nrounds) ;;
  ws <- load_lanes cf 25 state ;;
  store_lanes cf (keccak_ref_words nrounds ws) state.

(* ---------- permutation.c and isap.h ---------- *)

(* The functions selected by permutation.c for one build. *)
Record plib := Plib {
  pl_init : ptr -> M unit;
  pl_add : ptr -> ptr -> N -> N -> M unit;
  pl_over : ptr -> ptr -> N -> N -> M unit;
  pl_perm : ptr -> N -> M unit;
  pl_extract : ptr -> ptr -> N -> N -> M unit }.

Definition ascon_lib (cf : cfg) : plib :=
  Plib (lib_Initialize 40) (lib_AddBytes cf 40) (Ascon_OverwriteBytes cf) (Ascon_Permute_Nrounds cf)
       (lib_ExtractBytes cf 40).
Definition keccak_lib (cf : cfg) : plib :=
  Plib (lib_Initialize 50) (lib_AddBytes cf 50) (KeccakP400_OverwriteBytes cf) (KeccakP400_Permute_Nrounds cf)
       (lib_ExtractBytes cf 50).

(* isap.h 4-112: the macros of one instance. *)
Record macros := Macros { ISAP_rH : N; ISAP_sH : N; ISAP_sB : N; ISAP_sE : N; ISAP_sK : N; ISAP_STATE_SZ : N }.
Definition mac_k128  := Macros 144 20 12 12 12 50.   (* lines 16-27 *)
Definition mac_a128  := Macros 64 12 12 12 12 40.    (* lines 35-46 *)
Definition mac_k128a := Macros 144 16 1 8 8 50.      (* lines 62-73 *)
Definition mac_a128a := Macros 64 12 1 6 12 40.      (* lines 81-92 *)

Definition CRYPTO_KEYBYTES : N := 16.      (* api.h 5 *)
Definition CRYPTO_NPUBBYTES : N := 16.     (* api.h 7 *)
Definition ISAP_IV_SZ : N := 8.            (* isap.h 106 *)
Definition ISAP_TAG_SZ : N := 16.          (* isap.h 109 *)
Definition ISAP_rB : N := 1.
Definition ISAP_K : N := 128.              (* isap.h 112 *)

(* isap.c 7-9: contents of the three global constants; they live in memory blocks 0, 1, 2. *)
Definition iv_bytes (m : macros) (ty : N) : list N :=
  [ty; ISAP_K; ISAP_rH m; ISAP_rB; ISAP_sH m; ISAP_sB m; ISAP_sE m; ISAP_sK m].
Definition globals (m : macros) : mem :=
  [map Some (iv_bytes m 1); map Some (iv_bytes m 2); map Some (iv_bytes m 3)].
Definition ISAP_IV_A : ptr := P 0 0.
Definition ISAP_IV_KA : ptr := P 1 0.
Definition ISAP_IV_KE : ptr := P 2 0.

(* ---------- isap.c ---------- *)

Section Isap.
  Variable L : plib.
  Variable mc : macros.
  Notation SZ := (ISAP_STATE_SZ mc).
  Definition ISAP_rH_SZ : N := (ISAP_rH mc + 7) / 8.       (* isap.h 103 *)

  (* permutation.c 18-85 with DEBUG off; the parameters are unsigned int. *)
  Definition Permutation_Initialize (s : ptr) : M unit := pl_init L s.
  Definition Permutation_AddBytes (s d : ptr) (o n : N) : M unit := pl_add L s d (u32 o) (u32 n).
  Definition Permutation_OverwriteBytes (s d : ptr) (o n : N) : M unit := pl_over L s d (u32 o) (u32 n).
  Definition Permutation_Permute_Nrounds (s : ptr) (n : N) : M unit := pl_perm L s (u32 n).
  Definition Permutation_ExtractBytes (s d : ptr) (o n : N) : M unit := pl_extract L s d (u32 o) (u32 n).

  (* A one-byte local whose address is taken, added to the state. *)
  Definition add_local (state : ptr) (v offset : N) : M unit :=
    with_block 1 (fun cur => store cur v ;; Permutation_AddBytes state cur offset 1).

  (* isap.c 15-44. *)
  Definition isap_rk (k iv in_ : ptr) (inlen : N) (out : ptr) (outlen : N) : M unit :=
    with_block (N.to_nat SZ) (fun state =>
      Permutation_Initialize state ;;
      Permutation_AddBytes state k 0 CRYPTO_KEYBYTES ;;
      Permutation_AddBytes state iv CRYPTO_KEYBYTES ISAP_IV_SZ ;;
      Permutation_Permute_Nrounds state (ISAP_sK mc) ;;
      for_ 0 (sub64 (u64 (inlen * 8)) 1) (fun i _ =>
        let cur_byte_pos := i / 8 in
        let cur_bit_pos := 7 - i mod 8 in
        b <- load (padd in_ cur_byte_pos) ;;
        add_local state (u8 (N.shiftl (N.land (N.shiftr b cur_bit_pos) 1) 7)) 0 ;;
        Permutation_Permute_Nrounds state (ISAP_sB mc)) tt ;;
      b <- load (padd in_ (sub64 inlen 1)) ;;
      add_local state (u8 (N.shiftl (N.land b 1) 7)) 0 ;;
      Permutation_Permute_Nrounds state (ISAP_sK mc) ;;
      Permutation_ExtractBytes state out 0 outlen).

  (* isap.c 64-75, loop over the associated data; the accumulator is rate_bytes_avail. *)
  Definition mac_ad_loop (state ad : ptr) (adlen : N) : M N :=
    for_ 0 adlen (fun i avail =>
      avail <- if_ (avail =? 0)
                 (Permutation_Permute_Nrounds state (ISAP_sH mc) ;; ret ISAP_rH_SZ)
                 (ret avail) ;;
      cur_ad <- load (padd ad i) ;;
      add_local state cur_ad (sub64 ISAP_rH_SZ avail) ;;
      ret (sub64 avail 1)) ISAP_rH_SZ.

  (* isap.c 77-84. *)
  Definition mac_ad_pad (state : ptr) (avail : N) : M unit :=
    avail <- if_ (avail =? 0)
               (Permutation_Permute_Nrounds state (ISAP_sH mc) ;; ret ISAP_rH_SZ)
               (ret avail) ;;
    add_local state 0x80 (sub64 ISAP_rH_SZ avail) ;;
    Permutation_Permute_Nrounds state (ISAP_sH mc).

  (* isap.c 90-101. *)
  Definition mac_c_loop (state c : ptr) (clen : N) : M N :=
    for_ 0 clen (fun i avail =>
      cur_c <- load (padd c i) ;;
      add_local state cur_c (sub64 ISAP_rH_SZ avail) ;;
      let avail := sub64 avail 1 in
      if_ (avail =? 0)
        (Permutation_Permute_Nrounds state (ISAP_sH mc) ;; ret ISAP_rH_SZ)
        (ret avail)) ISAP_rH_SZ.

  (* isap.c 50-118. *)
  Definition isap_mac (k npub ad : ptr) (adlen : N) (c : ptr) (clen : N) (tag : ptr) : M unit :=
    with_block (N.to_nat SZ) (fun state =>
      Permutation_Initialize state ;;
      Permutation_AddBytes state npub 0 CRYPTO_NPUBBYTES ;;
      Permutation_AddBytes state ISAP_IV_A CRYPTO_NPUBBYTES ISAP_IV_SZ ;;
      Permutation_Permute_Nrounds state (ISAP_sH mc) ;;
      avail <- mac_ad_loop state ad adlen ;;
      mac_ad_pad state avail ;;
      add_local state 0x01 (SZ - 1) ;;                               (* lines 87-88 *)
      avail <- mac_c_loop state c clen ;;
      add_local state 0x80 (sub64 ISAP_rH_SZ avail) ;;                   (* lines 104-106 *)
      Permutation_Permute_Nrounds state (ISAP_sH mc) ;;
      with_block 16 (fun y => with_block 16 (fun ka_star =>          (* lines 109-110 *)
        Permutation_ExtractBytes state y 0 CRYPTO_KEYBYTES ;;
        isap_rk k ISAP_IV_KA y CRYPTO_KEYBYTES ka_star CRYPTO_KEYBYTES ;;
        Permutation_OverwriteBytes state ka_star 0 CRYPTO_KEYBYTES ;;
        Permutation_Permute_Nrounds state (ISAP_sH mc) ;;
        Permutation_ExtractBytes state tag 0 CRYPTO_KEYBYTES))).

  (* isap.c 124-147. *)
  Definition isap_enc (k npub m : ptr) (mlen : N) (c : ptr) : M unit :=
    with_block (N.to_nat SZ) (fun state =>
      isap_rk k ISAP_IV_KE npub CRYPTO_NPUBBYTES state (SZ - CRYPTO_NPUBBYTES) ;;
      Permutation_OverwriteBytes state npub (SZ - CRYPTO_NPUBBYTES) CRYPTO_NPUBBYTES ;;
      for_ 0 mlen (fun i avail =>
        avail <- if_ (avail =? 0)
                   (Permutation_Permute_Nrounds state (ISAP_sE mc) ;; ret ISAP_rH_SZ)
                   (ret avail) ;;
        with_block 1 (fun keybyte =>
          Permutation_ExtractBytes state keybyte (i mod ISAP_rH_SZ) 1 ;;
          mb <- load (padd m i) ;;
          kb <- load keybyte ;;
          store (padd c i) (N.lxor mb kb)) ;;
        ret (sub64 avail 1)) 0 ;;
      ret tt).

  (* ---------- crypto_aead.c ---------- *)

  (* An unsigned long long object, little-endian. *)
  Definition store_ull (cf : cfg) (p : ptr) (v : N) : M unit := storen cf (word_le 8 v) p.
  Definition load_ull (cf : cfg) (p : ptr) : M N := bs <- loadn cf 8 p ;; ret (le_word bs).

  (* crypto_aead.c 4-26. *)
  Definition crypto_aead_encrypt (cf : cfg) (c clen m : ptr) (mlen : N) (ad : ptr) (adlen : N)
      (npub k : ptr) : M Z :=
    store_ull cf clen (u64 (mlen + ISAP_TAG_SZ)) ;;
    if_ (0 <? mlen) (isap_enc k npub m mlen c) (ret tt) ;;
    isap_mac k npub ad adlen c mlen (padd c mlen) ;;
    ret 0%Z.

  (* crypto_aead.c 28-60; *mlen is re-read from memory wherever the code reads it. *)
  Definition crypto_aead_decrypt (cf : cfg) (m mlen c : ptr) (clen : N) (ad : ptr) (adlen : N)
      (npub k : ptr) : M Z :=
    store_ull cf mlen (sub64 clen ISAP_TAG_SZ) ;;
    with_block 16 (fun tag =>
      ml <- load_ull cf mlen ;;
      isap_mac k npub ad adlen c ml tag ;;
      eq_cnt <- for_ 0 ISAP_TAG_SZ (fun i eq_cnt =>
        a <- load (padd tag i) ;;
        ml <- load_ull cf mlen ;;
        b <- load (padd c (u64 (ml + i))) ;;
        ret (eq_cnt + (if a =? b then 1 else 0))) 0 ;;
      if_ (eq_cnt =? ISAP_TAG_SZ)
        (ml <- load_ull cf mlen ;;
         if_ (0 <? ml) (ml <- load_ull cf mlen ;; isap_enc k npub c ml m) (ret tt) ;;
         ret 0%Z)
        (ret (-1)%Z)).
End Isap.
