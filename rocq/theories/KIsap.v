(* Model of isap.c of isapk128av20/opt_64, isapk128v20/opt_64 (the same text but for the four PermuteRounds macros) and
   isapk128av20/avx512 (the same text but for the operations collected in the record kops below). No proofs.
   union State is modelled as the list of its 50 bytes; lanes, 64-bit words and vectors are views of these bytes, little-endian. It is a
   local variable, so accesses to it are not memory events. In avx512 the list has 64 bytes; the last 14 of them, which belong to no lane,
   are uninitialised at first and have arbitrary values (argument junk of kavx_ops). UINT64 and size_t have 64 bits. crypto_aead.c has the common text (ApiCode.v). Line numbers are those of isapk128av20/opt_64/isap.c. *)
From Verif Require Import Base SpecPerm Mem K64Perm.
From Verif Require Import RefIsap.
Open Scope N_scope.
Open Scope cm_scope.

(* XOR of bytes into the bytes of the state from number off on. *)
Fixpoint xor_at (S : list N) (off : nat) (bs : list N) {struct S} : list N :=
  match S, off, bs with
  | x :: S', O, b :: bs' => N.lxor x b :: xor_at S' O bs'
  | x :: S', Datatypes.S off', _ => x :: xor_at S' off' bs
  | _, _, _ => S
  end.

(* The bytes of lanes. *)
Definition of_lanes (ws : list N) : list N := concat (map (word_le 2) ws).

(* What differs between opt_64 and avx512. *)
Record kops := KOps {
  k_init : list N -> M (list N);                         (* the state whose 25 lanes are given, e.g. lines 108-132 *)
  k_perm : N -> list N -> M (list N);                    (* the permutation with a number of rounds *)
  k_load_src : cfg -> ptr -> M (list N);                 (* the 18 bytes absorbed in lines 61-63 and 68-70 *)
  k_load_m : cfg -> ptr -> M (list N);                   (* the 18 bytes of the message in lines 307-309 and 317-319 *)
  k_bit : list N -> N -> list N;                         (* XOR of cur_bit, lines 140 and 144 *)
  k_dom : list N -> list N;                              (* line 215 *)
  k_out : cfg -> list N -> ptr -> N -> M unit;           (* lines 148-166, outlen last *)
  k_store16 : cfg -> list N -> ptr -> M unit;            (* the first 16 bytes of the state, lines 222-229 and 244-251 *)
  k_load16 : cfg -> ptr -> M (list N)                    (* 16 bytes, lines 231-238 *)
}.

(* The macros PermuteRoundsBX, EX, HX, KX of lines 51-54. *)
Record krounds := KRounds { krB : N; krE : N; krH : N; krK : N }.
Definition rounds_128a : krounds := KRounds 1 8 16 8.     (* isapk128av20/opt_64/isap.c 51-54, isapk128av20/avx512/isap.c 53-56 *)
Definition rounds_128 : krounds := KRounds 12 12 20 12.   (* isapk128v20/opt_64/isap.c 51-54 *)

Section KIsap.
  Variable o : kops.
  Variable R : krounds.
  Variable cf : cfg.

  Definition permute (r : N) (s : list N) : M (list N) := emit (EPerm r) ;; k_perm o r s.
  Definition BX := permute (krB R).
  Definition EX := permute (krE R).
  Definition HX := permute (krH R).
  Definition KX := permute (krK R).
  Definition init := k_init o.

  (* ABSORB_MAC, lines 56-88. The loop while(1) with its two breaks is a while loop over its first branch followed by the other two. *)
  Definition absorb_full (src : ptr) (st : list N * N * N) : M (list N * N * N) :=
    let '(s, idx, rem_bytes) := st in
    b <- k_load_src o cf (padd src idx) ;;
    s <- HX (xor_at s 0 b) ;;
    ret (s, u64 (idx + 18), sub64 rem_bytes 18).
  Definition ABSORB_MAC (s : list N) (src : ptr) (len : N) : M (list N) :=
    st <- while_ (S (N.to_nat (len / 18))) (fun st => 18 <? snd st) (absorb_full src) (s, 0, len) ;;
    let '(s, idx, rem_bytes) := st in
    if_ (rem_bytes =? 18)
      (b <- k_load_src o cf (padd src idx) ;;
       s <- HX (xor_at s 0 b) ;;
       HX (xor_at s 0 (word_le 2 0x80)))
      (r <- for_ 0 18 (fun i r =>
         let '(s, idx) := r in
         if_ (i <? rem_bytes)
           (v <- load (padd src idx) ;; ret (xor_at s (N.to_nat i) [v], u64 (idx + 1)))
           (if_ (i =? rem_bytes) (ret (xor_at s (N.to_nat i) [0x80], idx)) (ret (s, idx)))) (s, idx) ;;
       HX (fst r)).

  (* lines 94-167 *)
  Definition isap_rk (k iv y : ptr) (ylen : N) (out : ptr) (outlen : N) : M unit :=
    k16 <- load_lanes cf 8 k ;;
    iv16 <- load_lanes cf 4 iv ;;
    s <- init (k16 ++ iv16 ++ repeat 0 13) ;;
    s <- KX s ;;
    s <- for_ 0 (sub64 (u64 (ylen * 8)) 1) (fun i s =>
      let cur_byte_pos := i / 8 in
      let cur_bit_pos := 7 - i mod 8 in
      v <- load (padd y cur_byte_pos) ;;
      let cur_bit := N.shiftl (N.land (N.shiftr v cur_bit_pos) 0x01) 7 in
      BX (k_bit o s cur_bit)) s ;;
    v <- load (padd y (sub64 ylen 1)) ;;
    let cur_bit := N.shiftl (N.land v 0x01) 7 in
    s <- KX (k_bit o s cur_bit) ;;
    k_out o cf s out outlen.

  (* ISAP_IV1[i] | (ISAP_IV1[i+1] << 8), lines 192-195. ISAP_IV1, ISAP_IV2, ISAP_IV3 (lines 8-10) are blocks 0, 1, 2 like ISAP_IV_A,
     ISAP_IV_KA, ISAP_IV_KE elsewhere. *)
  Definition iv1_pair (i : N) : M N :=
    a <- load (padd ISAP_IV_A i) ;; b <- load (padd ISAP_IV_A (i + 1)) ;; ret (N.lor a (N.shiftl b 8)).
  (* lines 173-252 *)
  Definition isap_mac (k npub ad : ptr) (adlen : N) (c : ptr) (clen : N) (tag : ptr) : M unit :=
    npub16 <- load_lanes cf 8 npub ;;
    i0 <- iv1_pair 0 ;; i1 <- iv1_pair 2 ;; i2 <- iv1_pair 4 ;; i3 <- iv1_pair 6 ;;
    s <- init (npub16 ++ [i0; i1; i2; i3] ++ repeat 0 13) ;;
    s <- HX s ;;
    s <- ABSORB_MAC s ad adlen ;;
    s <- ABSORB_MAC (k_dom o s) c clen ;;
    with_block 16 (fun y =>
      k_store16 o cf s y ;;
      isap_rk k ISAP_IV_KA y CRYPTO_KEYBYTES y CRYPTO_KEYBYTES ;;
      b <- k_load16 o cf y ;;
      s <- HX (b ++ skipn 16 s) ;;
      k_store16 o cf s tag).

  (* lines 304-313 and 314-320: the XOR of the state and 18 bytes of the message is written to c+idx by one memcpy (avx512: one masked
     store). *)
  Definition squeeze_lane (s : list N) (m c : ptr) (idx : N) : M unit :=
    b <- k_load_m o cf (padd m idx) ;;
    let lane := xor_at (firstn 18 s) 0 b in
    emit (EWr (padd c idx) 18) ;; stores_ lane (padd c idx).
  Definition enc_full (m c : ptr) (st : list N * N * N) : M (list N * N * N) :=
    let '(s, idx, rem_bytes) := st in
    squeeze_lane s m c idx ;;
    s <- EX s ;;
    ret (s, u64 (idx + 18), sub64 rem_bytes 18).
  (* lines 258-331 *)
  Definition isap_enc (k npub m : ptr) (mlen : N) (c : ptr) : M unit :=
    with_block 50 (fun state =>
      isap_rk k ISAP_IV_KE npub CRYPTO_NPUBBYTES state (50 - CRYPTO_NPUBBYTES) ;;
      state16 <- load_lanes cf 17 state ;;
      npub16 <- load_lanes cf 8 npub ;;
      s <- init (state16 ++ npub16) ;;
      s <- EX s ;;
      st <- while_ (S (N.to_nat (mlen / 18))) (fun st => 18 <? snd st) (enc_full m c) (s, 0, mlen) ;;
      let '(s, idx, rem_bytes) := st in
      if_ (rem_bytes =? 18)
        (squeeze_lane s m c idx)
        (for_ 0 rem_bytes (fun i idx =>
           v <- load (padd m idx) ;;
           store (padd c idx) (N.lxor (nth (N.to_nat i) s 0) v) ;;
           ret (u64 (idx + 1))) idx ;;
         ret tt)).
End KIsap.

(* ---------- opt_64 ---------- *)

(* The low 16 bits of an 8-byte access, lines 63 and 70: S.l16[8] ^= *((UINT64 * )(src+idx+16)). All eight bytes must exist; the contents of
   the last six are discarded by the conversion to UINT16 (and may be uninitialised in this model). *)
Definition load_lo16 (cf : cfg) (p : ptr) : M (list N) :=
  if aligned cf p 8 then
    (emit (ERd p 8) ;; fun s => if inside (smem s) (padd p 7) then loads_ 2 p s else UB)
  else fail_ub.
Definition k64_load_src (cf : cfg) (p : ptr) : M (list N) :=
  a <- loadn cf 8 (padd p 0) ;; b <- loadn cf 8 (padd p 8) ;; c <- load_lo16 cf (padd p 16) ;; ret (a ++ b ++ c).
Definition k64_load_m (cf : cfg) (p : ptr) : M (list N) :=
  a <- loadn cf 8 (padd p 0) ;; b <- loadn cf 8 (padd p 8) ;; c <- loadn cf 2 (padd p 16) ;; ret (a ++ b ++ c).
(* The lanes number i to i+n-1 written to 16-bit objects. *)
Definition k64_store (cf : cfg) (s : list N) (i n : nat) (p : ptr) : M unit :=
  store_lanes cf (firstn n (skipn i (map le_word (chunks 2 s)))) (padd p (2 * N.of_nat i)).
Definition k64_out (cf : cfg) (s : list N) (out : ptr) (outlen : N) : M unit :=
  k64_store cf s 0 8 out ;;
  if_ (outlen =? 50 - CRYPTO_NPUBBYTES) (k64_store cf s 8 9 out) (ret tt).
(* scr: what the scratch variables contain when the permutation starts; it may depend on anything. *)
Definition k64_ops (scr : st -> list N) : kops := KOps
  (fun ws => ret (of_lanes ws))
  (fun r s z => Ok (k64_perm (scr z) r s) z)
  k64_load_src k64_load_m
  (fun s v => xor_at s 0 (word_le 2 v))
  (fun s => xor_at s 48 (word_le 2 0x0100))
  k64_out
  (fun cf s p => k64_store cf s 0 8 p)
  (fun cf p => ws <- load_lanes cf 8 p ;; ret (of_lanes ws)).

(* ---------- avx512 ---------- *)

(* _mm512_maskz_loadu_epi8 / _mm512_mask_loadu_epi16 and the masked stores: exactly the bytes selected by the mask, no alignment needed. *)
Definition mask_load (n : nat) (p : ptr) : M (list N) := emit (ERd p (N.of_nat n)) ;; loads_ n p.
Definition mask_store (bs : list N) (p : ptr) : M unit := emit (EWr p (N.of_nat (length bs))) ;; stores_ bs p.
(* junk: the uninitialised bytes of the union, depending on the contents of memory. *)
Definition kavx_ops (junk : mem -> list N) (perm : N -> list N -> M (list N)) : kops := KOps
  (fun ws z => Ok (of_lanes ws ++ junk (smem z)) z)
  perm
  (fun _ p => mask_load 18 p) (fun _ p => mask_load 18 p)
  (fun s v => xor_at s 0 (word_le 1 v))                             (* avx512/isap.c: S.S ^= maskz_loadu_epi8(1, &cur_bit) *)
  (fun s => xor_at s 48 (word_le 4 0x0100))                         (* avx512/isap.c: _mm512_set_epi32(0,0,0,0x0100,0,...): 32-bit element 12 *)
  (fun _ s out outlen =>                                             (* avx512/isap.c: masks 0x1ffff and 0xff of 16-bit elements *)
    if_ (outlen =? 50 - CRYPTO_NPUBBYTES) (mask_store (firstn 34 s) out) (mask_store (firstn 16 s) out))
  (fun _ s p => mask_store (firstn 16 s) p)
  (fun _ p => mask_load 16 p).
