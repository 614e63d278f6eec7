(* isap.c of isapa128av20/avx_512 with a measuring device on the permutation: before every use of P12, P6 and P1 `note` is run on the five lanes,
   before every use of P6_avx_first and P6_avx_second on both elements of the vector registers. Apart from `note` this is AvxA.v, function by
   function, with the same line numbers; C62_device_off proves that without a device it is that model. The device is not part of /repo.
   No proofs. *)
From Verif Require Import Base Prog SpecPerm Mem Vocab OptPerm OptIsap A128Perm.
From Verif Require Import RefIsap.
From Verif Require Import AvxA.
From Verif Require ApiCode OptProbe.
Open Scope N_scope.
Open Scope cm_scope.

Section AvxAProbe.
  Variable UL : N.            (* width of unsigned long in bits; the type called u32 in line 9 *)
  Variable cf : cfg.
  Variable note : state -> M unit.
  Notation ulA := (AvxA.ulA UL).
  Notation sublA := (AvxA.sublA UL).
  Definition P12A := OptProbe.perm avxa note 12.
  Definition P6A := OptProbe.perm avxa note 6.
  Definition P1A := OptProbe.perm avxa note 1.
  Definition vperm (cs : list (N * N)) (v : vec) : M vec := note (fst v) ;; note (snd v) ;; emit (EPerm 6) ;; ret (vrounds cs v).

  (* ABSORB_LANES, 160-193. The loop while(1) with its two breaks is a while loop over its first branch followed by the other two. No
     permutation after the last, padded block. *)
  Definition absorb_fullA (src : ptr) (st : state * N * N) : M (state * N * N) :=
    let '(s, idx64, rem_bytes) := st in
    t <- load_word avxa cf (padd src (8 * idx64)) ;;
    s <- P12A (setx s 0 (N.lxor (getx s 0) t)) ;;
    ret (s, ulA (idx64 + 1), sublA rem_bytes 8).
  Definition ABSORB_LANESA (s : state) (src : ptr) (len : N) : M state :=
    st <- while_ (S (N.to_nat (ulA len / 8))) (fun st => 8 <? snd st) (absorb_fullA src) (s, 0, ulA len) ;;
    let '(s, idx64, rem_bytes) := st in
    if_ (rem_bytes =? 8)
      (t <- load_word avxa cf (padd src (8 * idx64)) ;;
       s <- P12A (setx s 0 (N.lxor (getx s 0) t)) ;;
       ret (setx s 0 (N.lxor (getx s 0) 0x8000000000000000)))
      (r <- for_ 0 8 (fun i r =>
         let '(lane8, idx8) := r in
         if_ (i <? rem_bytes)
           (v <- load (padd src idx8) ;; ret (lane8 ++ [v], ulA (idx8 + 1)))
           (if_ (i =? rem_bytes) (ret (lane8 ++ [0x80], idx8)) (ret (lane8 ++ [0], idx8)))) ([], ulA (idx64 * 8)) ;;
       ret (setx s 0 (N.lxor (getx s 0) (U64TOWORD avxa (le_word (fst r)))))).

  (* 199-239 *)
  Definition isap_rkA (k iv y : ptr) (ylen : N) (out : ptr) (outlen : N) : M unit :=
    l0 <- load_word avxa cf (padd k 0) ;;
    l1 <- load_word avxa cf (padd k 8) ;;
    l2 <- load_word avxa cf (padd iv 0) ;;
    s <- P12A [l0; l1; l2; 0; 0] ;;
    s <- for_ 0 (sub64 (u64 (ylen * 8)) 1) (fun i s =>
      let cur_byte_pos := i / 8 in
      let cur_bit_pos := 7 - i mod 8 in
      v <- load (padd y cur_byte_pos) ;;
      let cur_bit := u8 (N.shiftl (N.land (N.shiftr v cur_bit_pos) 0x01) 7) in
      P1A (setx s 0 (N.lxor (getx s 0) (u64 (N.shiftl cur_bit 56))))) s ;;
    v <- load (padd y (sub64 ylen 1)) ;;
    let cur_bit := u8 (N.shiftl (N.land v 0x01) 7) in
    s <- P12A (setx s 0 (N.lxor (getx s 0) (u64 (N.shiftl cur_bit 56)))) ;;
    store_ull cf (padd out 0) (WORDTOU64 avxa (getx s 0)) ;;
    store_ull cf (padd out 8) (WORDTOU64 avxa (getx s 1)) ;;
    if_ (outlen =? 24) (store_ull cf (padd out 16) (WORDTOU64 avxa (getx s 2))) (ret tt).

  (* 277-294 and, the same text, 536-553: deriving K* in the array state and squeezing the tag. *)
  Definition finishA (k : ptr) (s : state) (state tag : ptr) : M unit :=
    store_ull cf (padd state 0) (WORDTOU64 avxa (getx s 0)) ;;
    store_ull cf (padd state 8) (WORDTOU64 avxa (getx s 1)) ;;
    store_ull cf (padd state 16) (WORDTOU64 avxa (getx s 2)) ;;
    store_ull cf (padd state 24) (WORDTOU64 avxa (getx s 3)) ;;
    store_ull cf (padd state 32) (WORDTOU64 avxa (getx s 4)) ;;
    isap_rkA k ISAP_IV_KA state CRYPTO_KEYBYTES state CRYPTO_KEYBYTES ;;
    x0 <- load_word avxa cf (padd state 0) ;;
    x1 <- load_word avxa cf (padd state 8) ;;
    x2 <- load_word avxa cf (padd state 16) ;;
    x3 <- load_word avxa cf (padd state 24) ;;
    x4 <- load_word avxa cf (padd state 32) ;;
    s <- P12A [x0; x1; x2; x3; x4] ;;
    store_ull cf (padd tag 0) (WORDTOU64 avxa (getx s 0)) ;;
    store_ull cf (padd tag 8) (WORDTOU64 avxa (getx s 1)).

  (* 245-295; ISAP_IV1, ISAP_IV2, ISAP_IV3 (lines 12-14) are blocks 0, 1, 2 like ISAP_IV_A, ISAP_IV_KA, ISAP_IV_KE elsewhere. *)
  Definition isap_macA (k npub ad : ptr) (adlen : N) (c : ptr) (clen : N) (tag : ptr) : M unit :=
    with_block 40 (fun state =>
      l0 <- load_word avxa cf (padd npub 0) ;;
      l1 <- load_word avxa cf (padd npub 8) ;;
      l2 <- load_word avxa cf (padd ISAP_IV_A 0) ;;
      s <- P12A [l0; l1; l2; 0; 0] ;;
      s <- ABSORB_LANESA s ad adlen ;;
      s <- P12A s ;;
      let s := setx s 4 (N.lxor (getx s 4) 1) in
      s <- ABSORB_LANESA s c clen ;;
      s <- P12A s ;;
      finishA k s state tag).

  (* 330-335; rem_bytes is an unsigned long long here *)
  Definition enc_fullA (m c : ptr) (st : state * N * N) : M (state * N * N) :=
    let '(s, idx64, rem_bytes) := st in
    v <- load_ull cf (padd m (8 * idx64)) ;;
    store_ull cf (padd c (8 * idx64)) (N.lxor (WORDTOU64 avxa (getx s 0)) v) ;;
    s <- P6A s ;;
    ret (s, ulA (idx64 + 1), sub64 rem_bytes 8).
  (* 301-352; the loop counter i of lines 345-348 stays below 8 *)
  Definition isap_encA (k npub m : ptr) (mlen : N) (c : ptr) : M unit :=
    with_block 40 (fun state =>
      isap_rkA k ISAP_IV_KE npub CRYPTO_NPUBBYTES state (40 - CRYPTO_NPUBBYTES) ;;
      x0 <- load_word avxa cf (padd state 0) ;;
      x1 <- load_word avxa cf (padd state 8) ;;
      x2 <- load_word avxa cf (padd state 16) ;;
      x3 <- load_word avxa cf (padd npub 0) ;;
      x4 <- load_word avxa cf (padd npub 8) ;;
      s <- P6A [x0; x1; x2; x3; x4] ;;
      st <- while_ (S (N.to_nat (mlen / 8))) (fun st => 8 <? snd st) (enc_fullA m c) (s, 0, mlen) ;;
      let '(s, idx64, rem_bytes) := st in
      if_ (rem_bytes =? 8)
        (v <- load_ull cf (padd m (8 * idx64)) ;;
         store_ull cf (padd c (8 * idx64)) (N.lxor (WORDTOU64 avxa (getx s 0)) v))
        (let lane64 := WORDTOU64 avxa (getx s 0) in
         for_ 0 rem_bytes (fun i idx8 =>
           v <- load (padd m idx8) ;;
           store (padd c idx8) (N.lxor (byte_at lane64 (N.to_nat i)) v) ;;
           ret (ulA (idx8 + 1))) (ulA (idx64 * 8)) ;;
         ret tt)).

  (* ---------- isap_mac_enc ---------- *)

  (* Lines 449-467, 487-496 and 519-529 contain no permutation: taken from AvxA.v. *)
  Notation mac_lane := (AvxA.mac_lane UL).
  Notation put_text := (AvxA.put_text UL).

  (* 434-498: the loop body *)
  Definition mac_enc_body (c m : ptr) (mlen : N) (l : lst) : M lst :=
    let rem_enc := l_enc l in
    encbytes1 <- if_ (8 <=? rem_enc)%Z (ret 8) (ret (zu64 rem_enc)) ;;
    encbytes2 <- if_ (8 <=? sub64 (zu64 rem_enc) encbytes1) (ret 8)
                   (if_ (encbytes1 <? 8) (ret 0) (ret (sub64 (zu64 rem_enc) encbytes1))) ;;
    tmpm1 <- text_word m (l_ienc l) encbytes1 ;;
    tmpm2 <- text_word m (u64 (l_ienc l + encbytes1)) encbytes2 ;;
    r <- if_ (zu64 rem_enc <? mlen)
           (r <- mac_lane c (l_mac l) (l_imac l) ;;
            rem_mac <- ssub (l_mac l) 8 ;;
            ret (U64TOWORD avxa (le_word (fst r)), rem_mac, snd r))
           (ret (0, l_mac l, l_imac l)) ;;
    let '(tmpc_mac1, rem_mac, idx8_mac) := r in
    let v := vxor (l_v l) 0 (0, tmpc_mac1) in
    v <- vperm avx_first v ;;
    let tmpc1 := N.lxor (WORDTOU64 avxa (getx (fst v) 0)) tmpm1 in
    v <- vperm avx_second v ;;
    let tmpc2 := N.lxor (WORDTOU64 avxa (getx (fst v) 0)) tmpm2 in
    let d := l_dom l in
    let v := vxor v 4 d in
    let d := (N.ldiff (fst d) (fst d), N.ldiff (snd d) (snd d)) in
    idx8_enc <- put_text c tmpc1 encbytes1 (l_ienc l) ;;
    idx8_enc <- put_text c tmpc2 encbytes2 idx8_enc ;;
    rem_enc <- ssub rem_enc 16 ;;
    ret (Lst v d rem_enc rem_mac idx8_enc idx8_mac).

  (* 517-533: the loop body *)
  Definition mac_rest (c : ptr) (st : state * Z * N) : M (state * Z * N) :=
    let '(s, rem_mac, idx8_mac) := st in
    r <- mac_lane c rem_mac idx8_mac ;;
    s <- P12A (setx s 0 (N.lxor (getx s 0) (U64TOWORD avxa (le_word (fst r))))) ;;
    rem_mac <- ssub rem_mac 8 ;;
    ret (s, rem_mac, snd r).

  (* 359-554 *)
  Definition isap_mac_enc (k npub ad : ptr) (adlen : N) (c : ptr) (clen : N) (m : ptr) (mlen : N) (tag : ptr) : M unit :=
    with_block 40 (fun state_mac =>
    with_block 40 (fun state_enc =>
      isap_rkA k ISAP_IV_KE npub CRYPTO_NPUBBYTES state_enc (40 - CRYPTO_NPUBBYTES) ;;
      v <- load_ull cf (padd npub 0) ;;
      store_ull cf (padd state_enc 24) v ;;
      v <- load_ull cf (padd npub 8) ;;
      store_ull cf (padd state_enc 32) v ;;
      l0 <- load_word avxa cf (padd npub 0) ;;
      l1 <- load_word avxa cf (padd npub 8) ;;
      l2 <- load_word avxa cf (padd ISAP_IV_A 0) ;;
      s <- P12A [l0; l1; l2; 0; 0] ;;
      s <- ABSORB_LANESA s ad adlen ;;
      t0 <- load_word avxa cf (padd state_enc 0) ;;
      t1 <- load_word avxa cf (padd state_enc 8) ;;
      t2 <- load_word avxa cf (padd state_enc 16) ;;
      t3 <- load_word avxa cf (padd state_enc 24) ;;
      t4 <- load_word avxa cf (padd state_enc 32) ;;
      l <- mac_enc_body c m mlen (Lst ([t0; t1; t2; t3; t4], s) (0, 1) (s64 mlen) (s64 clen) 0 0) ;;
      l <- while_ (S (N.to_nat (mlen / 16))) (fun l => 0 <? l_enc l)%Z (mac_enc_body c m mlen) l ;;
      st <- while_ (S (S (N.to_nat (clen / 8)))) (fun st => 0 <=? snd (fst st))%Z (mac_rest c) (snd (l_v l), l_mac l, l_imac l) ;;
      finishA k (fst (fst st)) state_mac tag)).

  (* crypto_aead.c 5-22 *)
  Definition crypto_aead_encryptA (c clen m : ptr) (mlen : N) (ad : ptr) (adlen : N) (npub k : ptr) : M Z :=
    store_ull cf clen (u64 (mlen + ISAP_TAG_SZ)) ;;
    isap_mac_enc k npub ad adlen c mlen m mlen (padd c mlen) ;;
    ret 0%Z.
End AvxAProbe.

(* crypto_aead.c over this isap.c (impl_avxa of AvxAImpl.v with the device). *)
Definition probed_avxa (UL : N) (leak : state -> N) (cf : cfg) : aead :=
  let note := OptProbe.record leak in
  Aead (crypto_aead_encryptA UL cf note) (ApiCode.crypto_aead_decrypt (isap_encA UL cf note) (isap_macA UL cf note) cf).
