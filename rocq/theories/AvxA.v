(* Model of /repo/crypto_aead/isapa128av20/avx_512: isap.c and the encryption function of crypto_aead.c (its decryption function has the
   common text, ApiCode.v). No proofs. Line numbers are those of isap.c unless another file is named.
   The lanes x0..x4 are local variables, modelled as a list. A vector register of type __m128i consists of two 64-bit elements; every
   vector instruction used here works on the two elements separately, so that the registers x0a..x4a are modelled as two lists of five
   words, element 0 (low half) and element 1 (high half) of each. The arrays tmp, tmpc_mac and the scalars are local values; the arrays
   state, state_mac, state_enc are memory. One EPerm event stands for one use of P12, P6, P1, P6_avx_first or P6_avx_second. *)
From Verif Require Import Base Prog SpecPerm Mem OptPerm OptIsap A128Perm.
From Verif Require Import RefIsap.
Open Scope N_scope.

(* ---------- permutations ---------- *)

(* ROTR (20), U64BIG (24-28), ROUND (30-74), R (156-158): the text of isapa128v20/opt_64/isap.c, modelled in A128Perm.v.
   P12 110-123, P6 125-132, P1 152-154. *)
Definition sched_avxa (nr : N) : list N :=
  if nr =? 12 then [0xf0; 0xe1; 0xd2; 0xc3; 0xb4; 0xa5; 0x96; 0x87; 0x78; 0x69; 0x5a; 0x4b]
  else if nr =? 6 then [0x96; 0x87; 0x78; 0x69; 0x5a; 0x4b]
  else if nr =? 1 then [0x4b] else [].
Definition avxa : asconp := {|
  U64TOWORD := conv big_rotr_prog; WORDTOU64 := conv big_rotr_prog; TOBI := fun v => v;
  PROUNDS := fun nr s => rounds ROUND_a128_64 8 (sched_avxa nr) s |}.

Section Vector.
  Open Scope prog_scope.
  (* _mm_ternarylogic_epi64(a, b, c, imm): bit 4a+2b+c of imm, bit by bit. *)
  Definition lit (w : exp) (b : bool) : exp := if b then w else Not 64 w.
  Definition minterm (a b c : exp) (i : N) : exp := lit a (N.testbit i 2) .& lit b (N.testbit i 1) .& lit c (N.testbit i 0).
  Definition ternarylogic (a b c : exp) (imm : N) : exp :=
    fold_left (fun e i => if N.testbit imm i then e .| minterm a b c i else e) [0; 1; 2; 3; 4; 5; 6; 7] (K 0).
  Definition mm_ror (x : exp) (n : N) : exp := Ror 64 x n.
  (* ROUNDAVX, 76-108, on one element; vC holds C2 for element 0 and C1 for element 1. *)
  Definition ROUNDAVX : prog :=
    [ x2 ::= ternarylogic x2 vC x1 0x96;
      x0 ^= V x4;
      x4 ^= V x3;
      t0 ::= V x0; t4 ::= V x4; t3 ::= V x3; t1 ::= V x1; t2 ::= V x2;
      x0 ::= ternarylogic t0 t1 t2 0xd2;
      x2 ::= ternarylogic t2 t3 t4 0xd2;
      x4 ::= ternarylogic t4 t0 t1 0xd2;
      x1 ::= ternarylogic t1 t2 t3 0xd2;
      x3 ::= ternarylogic t3 t4 t0 0xd2;
      x1 ^= V x0;
      x3 ^= V x2;
      x0 ^= V x4;
      t0 ::= mm_ror x0 19;
      t1 ::= mm_ror x0 28;
      t2 ::= mm_ror x1 39;
      t3 ::= mm_ror x1 61;
      x0 ::= ternarylogic x0 t0 t1 0x96;
      x1 ::= ternarylogic x1 t2 t3 0x96;
      t0 ::= mm_ror x2 1;
      t1 ::= mm_ror x2 6;
      t2 ::= mm_ror x3 10;
      t3 ::= mm_ror x3 17;
      x2 ::= ternarylogic x2 t0 t1 0x69;
      x3 ::= ternarylogic x3 t2 t3 0x96;
      t0 ::= mm_ror x4 7;
      t1 ::= mm_ror x4 41;
      x4 ::= ternarylogic x4 t0 t1 0x96 ].
End Vector.

Open Scope cm_scope.

(* The pairs (C1, C2): P6_avx_first 134-141, P6_avx_second 143-150. *)
Definition avx_first : list (N * N) := [(0xf0, 0x96); (0xe1, 0x87); (0xd2, 0x78); (0xc3, 0x69); (0xb4, 0x5a); (0xa5, 0x4b)].
Definition avx_second : list (N * N) := [(0x96, 0x96); (0x87, 0x87); (0x78, 0x78); (0x69, 0x69); (0x5a, 0x5a); (0x4b, 0x4b)].
(* The registers x0a..x4a: elements 0, elements 1. *)
Definition vec := (state * state)%type.
Definition vrounds (cs : list (N * N)) (v : vec) : vec :=
  (rounds ROUNDAVX 8 (map snd cs) (fst v), rounds ROUNDAVX 8 (map fst cs) (snd v)).
Definition vperm (cs : list (N * N)) (v : vec) : M vec := emit (EPerm 6) ;; ret (vrounds cs v).
(* xia ^= w for a vector w *)
Definition vxor (v : vec) (i : nat) (w : N * N) : vec :=
  (setx (fst v) i (N.lxor (getx (fst v) i) (fst w)), setx (snd v) i (N.lxor (getx (snd v) i) (snd w))).

(* long long: conversion from and to unsigned long long; subtraction of a small positive constant. *)
Definition s64 (x : N) : Z := if x <? 2 ^ 63 then Z.of_N x else (Z.of_N x - 2 ^ 64)%Z.
Definition zu64 (z : Z) : N := Z.to_N (z mod 2 ^ 64)%Z.
Definition ssub (z : Z) (k : Z) : M Z := if (z - k <? - 2 ^ 63)%Z then fail_ub else ret (z - k)%Z.

Section AvxA.
  Variable UL : N.            (* width of unsigned long in bits; the type called u32 in line 9 *)
  Variable cf : cfg.
  Definition ulA (x : N) : N := x mod 2 ^ UL.
  Definition sublA (x y : N) : N := ulA (x + 2 ^ UL - y).
  Definition P12A := perm avxa 12.
  Definition P6A := perm avxa 6.
  Definition P1A := perm avxa 1.

  (* ABSORB_LANES, 160-193. The loop while(1) with its two breaks is a while loop over its first branch followed by the other two. No
     permutation after the last, padded block. *)
  Definition absorb_fullA (src : ptr) (st : state * N * N) : M (state * N * N) :=
    let '(s, idx64, rem_bytes) := st in
    t <- load_word avxa cf (padd src (8 * idx64)) ;;
    s <- P12A (setx s 0 (N.lxor (getx s 0) t)) ;;
    ret (s, ulA (idx64 + 1), sublA rem_bytes 8).
  Definition ABSORB_LANESA (s : state) (src : ptr) (len : N) : M state :=
    st <- while_ (S (N.to_nat (ulA len / 8))) (fun st => 8 <? snd st) (absorb_fullA src) (s, 0, ulA len) ;;
    let '(s, idx64, rem_bytes) := st in
    if_ (rem_bytes =? 8)
      (t <- load_word avxa cf (padd src (8 * idx64)) ;;
       s <- P12A (setx s 0 (N.lxor (getx s 0) t)) ;;
       ret (setx s 0 (N.lxor (getx s 0) 0x8000000000000000)))
      (r <- for_ 0 8 (fun i r =>
         let '(lane8, idx8) := r in
         if_ (i <? rem_bytes)
           (v <- load (padd src idx8) ;; ret (lane8 ++ [v], ulA (idx8 + 1)))
           (if_ (i =? rem_bytes) (ret (lane8 ++ [0x80], idx8)) (ret (lane8 ++ [0], idx8)))) ([], ulA (idx64 * 8)) ;;
       ret (setx s 0 (N.lxor (getx s 0) (U64TOWORD avxa (le_word (fst r)))))).

  (* 199-239 *)
  Definition isap_rkA (k iv y : ptr) (ylen : N) (out : ptr) (outlen : N) : M unit :=
    l0 <- load_word avxa cf (padd k 0) ;;
    l1 <- load_word avxa cf (padd k 8) ;;
    l2 <- load_word avxa cf (padd iv 0) ;;
    s <- P12A [l0; l1; l2; 0; 0] ;;
    s <- for_ 0 (sub64 (u64 (ylen * 8)) 1) (fun i s =>
      let cur_byte_pos := i / 8 in
      let cur_bit_pos := 7 - i mod 8 in
      v <- load (padd y cur_byte_pos) ;;
      let cur_bit := u8 (N.shiftl (N.land (N.shiftr v cur_bit_pos) 0x01) 7) in
      P1A (setx s 0 (N.lxor (getx s 0) (u64 (N.shiftl cur_bit 56))))) s ;;
    v <- load (padd y (sub64 ylen 1)) ;;
    let cur_bit := u8 (N.shiftl (N.land v 0x01) 7) in
    s <- P12A (setx s 0 (N.lxor (getx s 0) (u64 (N.shiftl cur_bit 56)))) ;;
    store_ull cf (padd out 0) (WORDTOU64 avxa (getx s 0)) ;;
    store_ull cf (padd out 8) (WORDTOU64 avxa (getx s 1)) ;;
    if_ (outlen =? 24) (store_ull cf (padd out 16) (WORDTOU64 avxa (getx s 2))) (ret tt).

  (* 277-294 and, the same text, 536-553: deriving K* in the array state and squeezing the tag. *)
  Definition finishA (k : ptr) (s : state) (state tag : ptr) : M unit :=
    store_ull cf (padd state 0) (WORDTOU64 avxa (getx s 0)) ;;
    store_ull cf (padd state 8) (WORDTOU64 avxa (getx s 1)) ;;
    store_ull cf (padd state 16) (WORDTOU64 avxa (getx s 2)) ;;
    store_ull cf (padd state 24) (WORDTOU64 avxa (getx s 3)) ;;
    store_ull cf (padd state 32) (WORDTOU64 avxa (getx s 4)) ;;
    isap_rkA k ISAP_IV_KA state CRYPTO_KEYBYTES state CRYPTO_KEYBYTES ;;
    x0 <- load_word avxa cf (padd state 0) ;;
    x1 <- load_word avxa cf (padd state 8) ;;
    x2 <- load_word avxa cf (padd state 16) ;;
    x3 <- load_word avxa cf (padd state 24) ;;
    x4 <- load_word avxa cf (padd state 32) ;;
    s <- P12A [x0; x1; x2; x3; x4] ;;
    store_ull cf (padd tag 0) (WORDTOU64 avxa (getx s 0)) ;;
    store_ull cf (padd tag 8) (WORDTOU64 avxa (getx s 1)).

  (* 245-295; ISAP_IV1, ISAP_IV2, ISAP_IV3 (lines 12-14) are blocks 0, 1, 2 like ISAP_IV_A, ISAP_IV_KA, ISAP_IV_KE elsewhere. *)
  Definition isap_macA (k npub ad : ptr) (adlen : N) (c : ptr) (clen : N) (tag : ptr) : M unit :=
    with_block 40 (fun state =>
      l0 <- load_word avxa cf (padd npub 0) ;;
      l1 <- load_word avxa cf (padd npub 8) ;;
      l2 <- load_word avxa cf (padd ISAP_IV_A 0) ;;
      s <- P12A [l0; l1; l2; 0; 0] ;;
      s <- ABSORB_LANESA s ad adlen ;;
      s <- P12A s ;;
      let s := setx s 4 (N.lxor (getx s 4) 1) in
      s <- ABSORB_LANESA s c clen ;;
      s <- P12A s ;;
      finishA k s state tag).

  (* 330-335; rem_bytes is an unsigned long long here *)
  Definition enc_fullA (m c : ptr) (st : state * N * N) : M (state * N * N) :=
    let '(s, idx64, rem_bytes) := st in
    v <- load_ull cf (padd m (8 * idx64)) ;;
    store_ull cf (padd c (8 * idx64)) (N.lxor (WORDTOU64 avxa (getx s 0)) v) ;;
    s <- P6A s ;;
    ret (s, ulA (idx64 + 1), sub64 rem_bytes 8).
  (* 301-352; the loop counter i of lines 345-348 stays below 8 *)
  Definition isap_encA (k npub m : ptr) (mlen : N) (c : ptr) : M unit :=
    with_block 40 (fun state =>
      isap_rkA k ISAP_IV_KE npub CRYPTO_NPUBBYTES state (40 - CRYPTO_NPUBBYTES) ;;
      x0 <- load_word avxa cf (padd state 0) ;;
      x1 <- load_word avxa cf (padd state 8) ;;
      x2 <- load_word avxa cf (padd state 16) ;;
      x3 <- load_word avxa cf (padd npub 0) ;;
      x4 <- load_word avxa cf (padd npub 8) ;;
      s <- P6A [x0; x1; x2; x3; x4] ;;
      st <- while_ (S (N.to_nat (mlen / 8))) (fun st => 8 <? snd st) (enc_fullA m c) (s, 0, mlen) ;;
      let '(s, idx64, rem_bytes) := st in
      if_ (rem_bytes =? 8)
        (v <- load_ull cf (padd m (8 * idx64)) ;;
         store_ull cf (padd c (8 * idx64)) (N.lxor (WORDTOU64 avxa (getx s 0)) v))
        (let lane64 := WORDTOU64 avxa (getx s 0) in
         for_ 0 rem_bytes (fun i idx8 =>
           v <- load (padd m idx8) ;;
           store (padd c idx8) (N.lxor (byte_at lane64 (N.to_nat i)) v) ;;
           ret (ulA (idx8 + 1))) (ulA (idx64 * 8)) ;;
         ret tt)).

  (* ---------- isap_mac_enc ---------- *)

  (* i < rem_mac_bytes for an unsigned long i: both are converted to unsigned long long when unsigned long has 64 bits, i is converted
     to long long when it has fewer. *)
  Definition lt_ll (i : N) (rem : Z) : bool := if UL <? 64 then (Z.of_N i <? rem)%Z else i <? zu64 rem.
  Definition eq_ll (i : N) (rem : Z) : bool := if UL <? 64 then (Z.of_N i =? rem)%Z else i =? zu64 rem.
  (* 457-467 and 519-529: up to 8 bytes of the ciphertext, padded; returns the lane and idx8_mac *)
  Definition mac_lane (c : ptr) (rem_mac : Z) (idx8_mac : N) : M (list N * N) :=
    for_ 0 8 (fun i r =>
      let '(lane8, idx8_mac) := r in
      if_ (lt_ll i rem_mac)
        (v <- load (padd c idx8_mac) ;; ret (lane8 ++ [v], ulA (idx8_mac + 1)))
        (if_ (eq_ll i rem_mac) (ret (lane8 ++ [0x80], idx8_mac)) (ret (lane8 ++ [0], idx8_mac)))) ([], idx8_mac).

  (* 449-450 and 451-452: encbytes bytes at m[o..] as a little-endian word, the last byte first *)
  Definition text_word (m : ptr) (o encbytes : N) : M N :=
    for_ 0 encbytes (fun i tmpm =>
      v <- load (padd m (u64 (o + sub64 (sub64 encbytes i) 1))) ;;
      ret (N.lor (u64 (N.shiftl tmpm 8)) v)) 0.
  (* 487-491 and 492-496; returns idx8_enc *)
  Definition put_text (c : ptr) (tmpc encbytes idx8_enc : N) : M N :=
    for_ 0 encbytes (fun i idx8_enc =>
      store (padd c idx8_enc) (byte_at tmpc (N.to_nat i)) ;;
      ret (ulA (idx8_enc + 1))) idx8_enc.

  Record lst := Lst { l_v : vec; l_dom : N * N; l_enc : Z; l_mac : Z; l_ienc : N; l_imac : N }.

  (* 434-498: the loop body *)
  Definition mac_enc_body (c m : ptr) (mlen : N) (l : lst) : M lst :=
    let rem_enc := l_enc l in
    encbytes1 <- if_ (8 <=? rem_enc)%Z (ret 8) (ret (zu64 rem_enc)) ;;
    encbytes2 <- if_ (8 <=? sub64 (zu64 rem_enc) encbytes1) (ret 8)
                   (if_ (encbytes1 <? 8) (ret 0) (ret (sub64 (zu64 rem_enc) encbytes1))) ;;
    tmpm1 <- text_word m (l_ienc l) encbytes1 ;;
    tmpm2 <- text_word m (u64 (l_ienc l + encbytes1)) encbytes2 ;;
    r <- if_ (zu64 rem_enc <? mlen)
           (r <- mac_lane c (l_mac l) (l_imac l) ;;
            rem_mac <- ssub (l_mac l) 8 ;;
            ret (U64TOWORD avxa (le_word (fst r)), rem_mac, snd r))
           (ret (0, l_mac l, l_imac l)) ;;
    let '(tmpc_mac1, rem_mac, idx8_mac) := r in
    let v := vxor (l_v l) 0 (0, tmpc_mac1) in
    v <- vperm avx_first v ;;
    let tmpc1 := N.lxor (WORDTOU64 avxa (getx (fst v) 0)) tmpm1 in
    v <- vperm avx_second v ;;
    let tmpc2 := N.lxor (WORDTOU64 avxa (getx (fst v) 0)) tmpm2 in
    let d := l_dom l in
    let v := vxor v 4 d in
    let d := (N.ldiff (fst d) (fst d), N.ldiff (snd d) (snd d)) in
    idx8_enc <- put_text c tmpc1 encbytes1 (l_ienc l) ;;
    idx8_enc <- put_text c tmpc2 encbytes2 idx8_enc ;;
    rem_enc <- ssub rem_enc 16 ;;
    ret (Lst v d rem_enc rem_mac idx8_enc idx8_mac).

  (* 517-533: the loop body *)
  Definition mac_rest (c : ptr) (st : state * Z * N) : M (state * Z * N) :=
    let '(s, rem_mac, idx8_mac) := st in
    r <- mac_lane c rem_mac idx8_mac ;;
    s <- P12A (setx s 0 (N.lxor (getx s 0) (U64TOWORD avxa (le_word (fst r))))) ;;
    rem_mac <- ssub rem_mac 8 ;;
    ret (s, rem_mac, snd r).

  (* 359-554 *)
  Definition isap_mac_enc (k npub ad : ptr) (adlen : N) (c : ptr) (clen : N) (m : ptr) (mlen : N) (tag : ptr) : M unit :=
    with_block 40 (fun state_mac =>
    with_block 40 (fun state_enc =>
      isap_rkA k ISAP_IV_KE npub CRYPTO_NPUBBYTES state_enc (40 - CRYPTO_NPUBBYTES) ;;
      v <- load_ull cf (padd npub 0) ;;
      store_ull cf (padd state_enc 24) v ;;
      v <- load_ull cf (padd npub 8) ;;
      store_ull cf (padd state_enc 32) v ;;
      l0 <- load_word avxa cf (padd npub 0) ;;
      l1 <- load_word avxa cf (padd npub 8) ;;
      l2 <- load_word avxa cf (padd ISAP_IV_A 0) ;;
      s <- P12A [l0; l1; l2; 0; 0] ;;
      s <- ABSORB_LANESA s ad adlen ;;
      t0 <- load_word avxa cf (padd state_enc 0) ;;
      t1 <- load_word avxa cf (padd state_enc 8) ;;
      t2 <- load_word avxa cf (padd state_enc 16) ;;
      t3 <- load_word avxa cf (padd state_enc 24) ;;
      t4 <- load_word avxa cf (padd state_enc 32) ;;
      l <- mac_enc_body c m mlen (Lst ([t0; t1; t2; t3; t4], s) (0, 1) (s64 mlen) (s64 clen) 0 0) ;;
      l <- while_ (S (N.to_nat (mlen / 16))) (fun l => 0 <? l_enc l)%Z (mac_enc_body c m mlen) l ;;
      st <- while_ (S (S (N.to_nat (clen / 8)))) (fun st => 0 <=? snd (fst st))%Z (mac_rest c) (snd (l_v l), l_mac l, l_imac l) ;;
      finishA k (fst (fst st)) state_mac tag)).

  (* crypto_aead.c 5-22 *)
  Definition crypto_aead_encryptA (c clen m : ptr) (mlen : N) (ad : ptr) (adlen : N) (npub k : ptr) : M Z :=
    store_ull cf clen (u64 (mlen + ISAP_TAG_SZ)) ;;
    isap_mac_enc k npub ad adlen c mlen m mlen (padd c mlen) ;;
    ret 0%Z.
End AvxA.
