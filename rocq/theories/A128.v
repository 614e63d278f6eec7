(* Model of isap.c of the optimised ISAP-A-128 implementations in /repo/crypto_aead/isapa128v20: opt_64, opt_32, opt_32_armv67m. No proofs.
   The lanes x0..x4 are local variables, modelled as a list; accesses to them are not memory events. Local arrays (state, y64, ka_star32,
   ke) are memory. crypto_aead.c has the common text (ApiCode.v). *)
From Verif Require Import Base SpecPerm Mem OptPerm OptIsap.
From Verif Require Import RefIsap.
Open Scope N_scope.
Open Scope cm_scope.

(* ---------- opt_64 ---------- *)

Section Opt64.
  Variable a : asconp.        (* U64BIG and P12 *)
  Variable UL : N.            (* width of unsigned long in bits; the type called u32 in line 8 *)
  Variable cf : cfg.
  Definition ul (x : N) : N := x mod 2 ^ UL.
  Definition subl (x y : N) : N := ul (x + 2 ^ UL - y).
  Definition P12 := perm a 12.

  (* ABSORB_MAC, lines 107-142. The loop while(1) with its two breaks is a while loop over its first branch followed by the other two.
     lane8[0..i-1] is the list of the bytes stored so far. *)
  Definition absorb_mac_full (src : ptr) (st : state * N * N) : M (state * N * N) :=
    let '(s, idx64, rem_bytes) := st in
    t <- load_word a cf (padd src (8 * idx64)) ;;
    s <- P12 (setx s 0 (N.lxor (getx s 0) t)) ;;
    ret (s, ul (idx64 + 1), subl rem_bytes 8).
  Definition ABSORB_MAC (s : state) (src : ptr) (len : N) : M state :=
    st <- while_ (S (N.to_nat (ul len / 8))) (fun st => 8 <? snd st) (absorb_mac_full src) (s, 0, ul len) ;;
    let '(s, idx64, rem_bytes) := st in
    if_ (rem_bytes =? 8)
      (t <- load_word a cf (padd src (8 * idx64)) ;;
       s <- P12 (setx s 0 (N.lxor (getx s 0) t)) ;;
       P12 (setx s 0 (N.lxor (getx s 0) 0x8000000000000000)))
      (r <- for_ 0 8 (fun i r =>
         let '(lane8, idx8) := r in
         if_ (i <? rem_bytes)
           (v <- load (padd src idx8) ;; ret (lane8 ++ [v], ul (idx8 + 1)))
           (if_ (i =? rem_bytes) (ret (lane8 ++ [0x80], idx8)) (ret (lane8 ++ [0], idx8)))) ([], ul (idx64 * 8)) ;;
       P12 (setx s 0 (N.lxor (getx s 0) (U64TOWORD a (le_word (fst r)))))).

  (* lines 148-188 *)
  Definition isap_rk_64 (k iv y : ptr) (ylen : N) (out : ptr) (outlen : N) : M unit :=
    l0 <- load_word a cf (padd k 0) ;;
    l1 <- load_word a cf (padd k 8) ;;
    l2 <- load_word a cf (padd iv 0) ;;
    s <- P12 [l0; l1; l2; 0; 0] ;;
    s <- for_ 0 (sub64 (u64 (ylen * 8)) 1) (fun i s =>
      let cur_byte_pos := i / 8 in
      let cur_bit_pos := 7 - i mod 8 in
      v <- load (padd y cur_byte_pos) ;;
      let cur_bit := u8 (N.shiftl (N.land (N.shiftr v cur_bit_pos) 0x01) 7) in
      P12 (setx s 0 (N.lxor (getx s 0) (u64 (N.shiftl cur_bit 56))))) s ;;
    v <- load (padd y (sub64 ylen 1)) ;;
    let cur_bit := u8 (N.shiftl (N.land v 0x01) 7) in
    s <- P12 (setx s 0 (N.lxor (getx s 0) (u64 (N.shiftl cur_bit 56)))) ;;
    store_ull cf (padd out 0) (WORDTOU64 a (getx s 0)) ;;
    store_ull cf (padd out 8) (WORDTOU64 a (getx s 1)) ;;
    if_ (outlen =? 24) (store_ull cf (padd out 16) (WORDTOU64 a (getx s 2))) (ret tt).

  (* lines 194-242; ISAP_IV1, ISAP_IV2, ISAP_IV3 (lines 11-13) are blocks 0, 1, 2 like ISAP_IV_A, ISAP_IV_KA, ISAP_IV_KE elsewhere. *)
  Definition isap_mac_64 (k npub ad : ptr) (adlen : N) (c : ptr) (clen : N) (tag : ptr) : M unit :=
    with_block 40 (fun state =>
      l0 <- load_word a cf (padd npub 0) ;;
      l1 <- load_word a cf (padd npub 8) ;;
      l2 <- load_word a cf (padd ISAP_IV_A 0) ;;
      s <- P12 [l0; l1; l2; 0; 0] ;;
      s <- ABSORB_MAC s ad adlen ;;
      let s := setx s 4 (N.lxor (getx s 4) 1) in
      s <- ABSORB_MAC s c clen ;;
      store_ull cf (padd state 0) (WORDTOU64 a (getx s 0)) ;;
      store_ull cf (padd state 8) (WORDTOU64 a (getx s 1)) ;;
      store_ull cf (padd state 16) (WORDTOU64 a (getx s 2)) ;;
      store_ull cf (padd state 24) (WORDTOU64 a (getx s 3)) ;;
      store_ull cf (padd state 32) (WORDTOU64 a (getx s 4)) ;;
      isap_rk_64 k ISAP_IV_KA state CRYPTO_KEYBYTES state CRYPTO_KEYBYTES ;;
      x0 <- load_word a cf (padd state 0) ;;
      x1 <- load_word a cf (padd state 8) ;;
      x2 <- load_word a cf (padd state 16) ;;
      x3 <- load_word a cf (padd state 24) ;;
      x4 <- load_word a cf (padd state 32) ;;
      s <- P12 [x0; x1; x2; x3; x4] ;;
      store_ull cf (padd tag 0) (WORDTOU64 a (getx s 0)) ;;
      store_ull cf (padd tag 8) (WORDTOU64 a (getx s 1))).

  (* lines 276-282; rem_bytes is an unsigned long long here *)
  Definition enc_full_64 (m c : ptr) (st : state * N * N) : M (state * N * N) :=
    let '(s, idx64, rem_bytes) := st in
    v <- load_ull cf (padd m (8 * idx64)) ;;
    store_ull cf (padd c (8 * idx64)) (N.lxor (WORDTOU64 a (getx s 0)) v) ;;
    s <- P12 s ;;
    ret (s, ul (idx64 + 1), sub64 rem_bytes 8).
  (* lines 248-299; the loop counter i of lines 292-295 stays below 8 *)
  Definition isap_enc_64 (k npub m : ptr) (mlen : N) (c : ptr) : M unit :=
    with_block 40 (fun state =>
      isap_rk_64 k ISAP_IV_KE npub CRYPTO_NPUBBYTES state (40 - CRYPTO_NPUBBYTES) ;;
      x0 <- load_word a cf (padd state 0) ;;
      x1 <- load_word a cf (padd state 8) ;;
      x2 <- load_word a cf (padd state 16) ;;
      x3 <- load_word a cf (padd npub 0) ;;
      x4 <- load_word a cf (padd npub 8) ;;
      s <- P12 [x0; x1; x2; x3; x4] ;;
      st <- while_ (S (N.to_nat (mlen / 8))) (fun st => 8 <? snd st) (enc_full_64 m c) (s, 0, mlen) ;;
      let '(s, idx64, rem_bytes) := st in
      if_ (rem_bytes =? 8)
        (v <- load_ull cf (padd m (8 * idx64)) ;;
         store_ull cf (padd c (8 * idx64)) (N.lxor (WORDTOU64 a (getx s 0)) v))
        (let lane64 := WORDTOU64 a (getx s 0) in
         for_ 0 rem_bytes (fun i idx8 =>
           v <- load (padd m idx8) ;;
           store (padd c idx8) (N.lxor (byte_at lane64 (N.to_nat i)) v) ;;
           ret (ul (idx8 + 1))) (ul (idx64 * 8)) ;;
         ret tt)).
End Opt64.

(* ---------- opt_32 and opt_32_armv67m ---------- *)

(* Line numbers are those of opt_32/isap.c. A u32_2 {e, o} is the lane e + 2^32 o. *)
Definition lane_e (x : N) : N := x mod 2 ^ 32.
Definition lane_o (x : N) : N := N.shiftr x 32.
Definition lane_eo (e o : N) : N := N.lor e (N.shiftl o 32).
(* ((u8 * )&t)[i] = v *)
Definition set_byte (t i v : N) : N := le_word (upd_nth (word_le 8 t) (N.to_nat i) v).

Section Opt32.
  Variable a : asconp.        (* conversions; P_sH, P_sE, P_sK *)
  Variable u : asconp.        (* P_sB_UROL, P_sH_UROL, P_sE_UROL of opt_32_armv67m (lines 9-15); the same as a in opt_32 (lines 9-12) *)
  Variable cf : cfg.
  Definition store32 (p : ptr) (v : N) : M unit := storen cf (word_le 4 v) p.
  Definition load32 (p : ptr) : M N := bs <- loadn cf 4 p ;; ret (le_word bs).
  Definition load_eo (p : ptr) : M N := o <- load32 (padd p 0) ;; e <- load32 (padd p 4) ;; ret (lane_eo e o).
  Definition store_eo (p : ptr) (x : N) : M unit := store32 (padd p 0) (lane_o x) ;; store32 (padd p 4) (lane_e x).

  (* lines 18-59 (armv67m 21-90) *)
  Definition isap_rk_32 (k iv y out : ptr) (outlen : N) : M unit :=
    l0 <- load_word a cf (padd k 0) ;;
    l1 <- load_word a cf (padd k 8) ;;
    l2 <- load_word a cf (padd iv 0) ;;
    s <- perm a 12 [l0; l1; l2; 0; 0] ;;
    s <- for_ 0 127 (fun i s =>
      let cur_byte_pos := i / 8 in
      let cur_bit_pos := 7 - i mod 8 in
      v <- load (padd y cur_byte_pos) ;;
      let cur_bit := N.shiftl (N.land (N.shiftr v cur_bit_pos) 0x01) 7 in
      perm u 12 (setx s 0 (N.lxor (getx s 0) (lane_eo 0 (u32 (N.shiftl cur_bit 24)))))) s ;;
    v <- load (padd y 15) ;;
    let cur_bit := u8 (N.shiftl (N.land v 0x01) 7) in
    s <- perm a 12 (setx s 0 (N.lxor (getx s 0) (lane_eo 0 (u32 (N.shiftl cur_bit 24))))) ;;
    store_eo (padd out 0) (getx s 0) ;;
    store_eo (padd out 8) (getx s 1) ;;
    if_ (16 <? outlen) (store_eo (padd out 16) (getx s 2)) (ret tt).

  (* lines 88-96 and 127-135 *)
  Definition absorb_full_32 (st : state * ptr * N) : M (state * ptr * N) :=
    let '(s, src, len) := st in
    t0 <- load_word a cf src ;;
    s <- perm u 12 (setx s 0 (N.lxor (getx s 0) t0)) ;;
    ret (s, padd src 8, sub64 len 8).
  (* lines 87-121 and 126-160 *)
  Definition absorb_32 (s : state) (src : ptr) (len : N) : M state :=
    st <- while_ (S (N.to_nat (len / 8))) (fun st => 8 <=? snd st) absorb_full_32 (s, src, len) ;;
    let '(s, src, len) := st in
    s <- if_ (0 <? len)
      (r <- for_ 0 len (fun i r =>
         let '(tmp0, src) := r in
         v <- load src ;; ret (set_byte tmp0 i v, padd src 1)) (0, src) ;;
       let tmp0 := set_byte (fst r) len 0x80 in
       perm a 12 (setx s 0 (N.lxor (getx s 0) (U64TOWORD a tmp0))))
      (ret s) ;;
    if_ (len =? 0) (perm a 12 (setx s 0 (N.lxor (getx s 0) (lane_eo 0 0x80000000)))) (ret s).

  (* lines 65-181. (x0, x1 of line 172-175 replace those of the MAC state.) *)
  Definition isap_mac_32 (k npub ad : ptr) (adlen : N) (c : ptr) (clen : N) (tag : ptr) : M unit :=
    l0 <- load_word a cf (padd npub 0) ;;
    l1 <- load_word a cf (padd npub 8) ;;
    l2 <- load_word a cf (padd ISAP_IV_A 0) ;;
    s <- perm a 12 [l0; l1; l2; 0; 0] ;;
    s <- absorb_32 s ad adlen ;;
    let s := setx s 4 (N.lxor (getx s 4) (lane_eo 1 0)) in
    s <- absorb_32 s c clen ;;
    with_block 16 (fun y64 =>
      store_ull cf (padd y64 0) (WORDTOU64 a (getx s 0)) ;;
      store_ull cf (padd y64 8) (WORDTOU64 a (getx s 1)) ;;
      with_block 16 (fun ka_star32 =>
        isap_rk_32 k ISAP_IV_KA y64 ka_star32 CRYPTO_KEYBYTES ;;
        x0 <- load_eo (padd ka_star32 0) ;;
        x1 <- load_eo (padd ka_star32 8) ;;
        s <- perm a 12 (setx (setx s 0 x0) 1 x1) ;;
        store_ull cf (padd tag 0) (WORDTOU64 a (getx s 0)) ;;
        store_ull cf (padd tag 8) (WORDTOU64 a (getx s 1)))).

  (* lines 212-220 *)
  Definition enc_full_32 (st : state * ptr * N * ptr) : M (state * ptr * N * ptr) :=
    let '(s, m, mlen, c) := st in
    s <- perm u 12 s ;;
    v <- load_ull cf m ;;
    store_ull cf c (N.lxor v (WORDTOU64 a (getx s 0))) ;;
    ret (s, padd m 8, sub64 mlen 8, padd c 8).
  (* lines 187-236 *)
  Definition isap_enc_32 (k npub m : ptr) (mlen : N) (c : ptr) : M unit :=
    with_block 24 (fun ke =>
      isap_rk_32 k ISAP_IV_KE npub ke (40 - CRYPTO_NPUBBYTES) ;;
      x0 <- load_eo (padd ke 0) ;;
      x1 <- load_eo (padd ke 8) ;;
      x2 <- load_eo (padd ke 16) ;;
      x3 <- load_word a cf (padd npub 0) ;;
      x4 <- load_word a cf (padd npub 8) ;;
      st <- while_ (S (N.to_nat (mlen / 8))) (fun st => 8 <=? snd (fst st)) enc_full_32 ([x0; x1; x2; x3; x4], m, mlen, c) ;;
      let '(s, m, mlen, c) := st in
      if_ (0 <? mlen)
        (s <- perm a 12 s ;;
         let tmp0 := WORDTOU64 a (getx s 0) in
         for_ 0 mlen (fun i mc =>
           let '(m, c) := mc in
           v <- load m ;;
           store c (N.lxor v (byte_at tmp0 (N.to_nat i))) ;;
           ret (padd m 1, padd c 1)) (m, c) ;;
         ret tt)
        (ret tt)).
End Opt32.
