(* isap.c of isapk128av20/opt_64, isapk128v20/opt_64 and isapk128av20/avx512 with a measuring device on the permutation: before every permutation
   `note` is run on the bytes of the state. Apart from `note` this is KIsap.v, function by function, with the same line numbers;
   C60_device_off proves that without a device it is that model. The device is not part of /repo. No proofs. *)
From Verif Require Import Base SpecPerm Mem Vocab K64Perm KAvxPerm KIsap.
From Verif Require Import RefIsap.
From Verif Require ApiCode.
Open Scope N_scope.
Open Scope cm_scope.

Section KProbe.
  Variable o : kops.
  Variable R : krounds.
  Variable cf : cfg.
  Variable note : list N -> M unit.

  (* The permutation of r rounds, the device before it. *)
  Definition permute (r : N) (s : list N) : M (list N) := note s ;; emit (EPerm r) ;; k_perm o r s.
  Definition BX := permute (krB R).
  Definition EX := permute (krE R).
  Definition HX := permute (krH R).
  Definition KX := permute (krK R).
  Definition init := k_init o.

  (* ABSORB_MAC, lines 56-88. The loop while(1) with its two breaks is a while loop over its first branch followed by the other two. *)
  Definition absorb_full (src : ptr) (st : list N * N * N) : M (list N * N * N) :=
    let '(s, idx, rem_bytes) := st in
    b <- k_load_src o cf (padd src idx) ;;
    s <- HX (xor_at s 0 b) ;;
    ret (s, u64 (idx + 18), sub64 rem_bytes 18).
  Definition ABSORB_MAC (s : list N) (src : ptr) (len : N) : M (list N) :=
    st <- while_ (S (N.to_nat (len / 18))) (fun st => 18 <? snd st) (absorb_full src) (s, 0, len) ;;
    let '(s, idx, rem_bytes) := st in
    if_ (rem_bytes =? 18)
      (b <- k_load_src o cf (padd src idx) ;;
       s <- HX (xor_at s 0 b) ;;
       HX (xor_at s 0 (word_le 2 0x80)))
      (r <- for_ 0 18 (fun i r =>
         let '(s, idx) := r in
         if_ (i <? rem_bytes)
           (v <- load (padd src idx) ;; ret (xor_at s (N.to_nat i) [v], u64 (idx + 1)))
           (if_ (i =? rem_bytes) (ret (xor_at s (N.to_nat i) [0x80], idx)) (ret (s, idx)))) (s, idx) ;;
       HX (fst r)).

  (* lines 94-167 *)
  Definition isap_rk (k iv y : ptr) (ylen : N) (out : ptr) (outlen : N) : M unit :=
    k16 <- load_lanes cf 8 k ;;
    iv16 <- load_lanes cf 4 iv ;;
    s <- init (k16 ++ iv16 ++ repeat 0 13) ;;
    s <- KX s ;;
    s <- for_ 0 (sub64 (u64 (ylen * 8)) 1) (fun i s =>
      let cur_byte_pos := i / 8 in
      let cur_bit_pos := 7 - i mod 8 in
      v <- load (padd y cur_byte_pos) ;;
      let cur_bit := N.shiftl (N.land (N.shiftr v cur_bit_pos) 0x01) 7 in
      BX (k_bit o s cur_bit)) s ;;
    v <- load (padd y (sub64 ylen 1)) ;;
    let cur_bit := N.shiftl (N.land v 0x01) 7 in
    s <- KX (k_bit o s cur_bit) ;;
    k_out o cf s out outlen.

  (* lines 173-252 *)
  Definition isap_mac (k npub ad : ptr) (adlen : N) (c : ptr) (clen : N) (tag : ptr) : M unit :=
    npub16 <- load_lanes cf 8 npub ;;
    i0 <- iv1_pair 0 ;; i1 <- iv1_pair 2 ;; i2 <- iv1_pair 4 ;; i3 <- iv1_pair 6 ;;
    s <- init (npub16 ++ [i0; i1; i2; i3] ++ repeat 0 13) ;;
    s <- HX s ;;
    s <- ABSORB_MAC s ad adlen ;;
    s <- ABSORB_MAC (k_dom o s) c clen ;;
    with_block 16 (fun y =>
      k_store16 o cf s y ;;
      isap_rk k ISAP_IV_KA y CRYPTO_KEYBYTES y CRYPTO_KEYBYTES ;;
      b <- k_load16 o cf y ;;
      s <- HX (b ++ skipn 16 s) ;;
      k_store16 o cf s tag).

  (* lines 304-313 and 314-320: the XOR of the state and 18 bytes of the message is written to c+idx by one memcpy (avx512: one masked
     store). *)
  Definition squeeze_lane (s : list N) (m c : ptr) (idx : N) : M unit :=
    b <- k_load_m o cf (padd m idx) ;;
    let lane := xor_at (firstn 18 s) 0 b in
    emit (EWr (padd c idx) 18) ;; stores_ lane (padd c idx).
  Definition enc_full (m c : ptr) (st : list N * N * N) : M (list N * N * N) :=
    let '(s, idx, rem_bytes) := st in
    squeeze_lane s m c idx ;;
    s <- EX s ;;
    ret (s, u64 (idx + 18), sub64 rem_bytes 18).
  (* lines 258-331 *)
  Definition isap_enc (k npub m : ptr) (mlen : N) (c : ptr) : M unit :=
    with_block 50 (fun state =>
      isap_rk k ISAP_IV_KE npub CRYPTO_NPUBBYTES state (50 - CRYPTO_NPUBBYTES) ;;
      state16 <- load_lanes cf 17 state ;;
      npub16 <- load_lanes cf 8 npub ;;
      s <- init (state16 ++ npub16) ;;
      s <- EX s ;;
      st <- while_ (S (N.to_nat (mlen / 18))) (fun st => 18 <? snd st) (enc_full m c) (s, 0, mlen) ;;
      let '(s, idx, rem_bytes) := st in
      if_ (rem_bytes =? 18)
        (squeeze_lane s m c idx)
        (for_ 0 rem_bytes (fun i idx =>
           v <- load (padd m idx) ;;
           store (padd c idx) (N.lxor (nth (N.to_nat i) s 0) v) ;;
           ret (u64 (idx + 1))) idx ;;
         ret tt)).
End KProbe.

(* The device: one number, computed in any way from the bytes of the 25 lanes (the first 50 of the list; of the vector of avx512, the bytes
   that belong to no lane are not shown to it), is added to the trace. *)
Definition record (leak : list N -> N) (s : list N) : M unit := emit (EPerm (leak (firstn 50 s))).

(* The implementations. scr: the contents of the uninitialised variables of the permutation; junk: those of the bytes of the vector outside the
   lanes (K64Impl.v, KAvxImpl.v). *)
Inductive kimpl : Type :=
| K64_128 (scr : st -> list N)                            (* isapk128v20/opt_64 *)
| K64_128a (scr : st -> list N)                           (* isapk128av20/opt_64 *)
| Kavx_128a (junk : mem -> list N) (scr : st -> list N).  (* isapk128av20/avx512 *)
Definition ki_ops (x : kimpl) : kops :=
  match x with
  | K64_128 scr | K64_128a scr => k64_ops scr
  | Kavx_128a junk scr => kavx_ops junk (fun r s z => Ok (kavx_perm (scr z) r s) z)
  end.
Definition ki_rounds (x : kimpl) : krounds := match x with K64_128 _ => rounds_128 | _ => rounds_128a end.

(* crypto_aead.c of the three directories (ApiCode.v) over isap.c, with the device and without. *)
Definition probed_k (x : kimpl) (leak : list N -> N) (cf : cfg) : aead :=
  Aead (ApiCode.crypto_aead_encrypt (isap_enc (ki_ops x) (ki_rounds x) cf (record leak)) (isap_mac (ki_ops x) (ki_rounds x) cf (record leak)) cf)
       (ApiCode.crypto_aead_decrypt (isap_enc (ki_ops x) (ki_rounds x) cf (record leak)) (isap_mac (ki_ops x) (ki_rounds x) cf (record leak)) cf).
Definition plain_k (x : kimpl) (cf : cfg) : aead :=
  Aead (ApiCode.crypto_aead_encrypt (KIsap.isap_enc (ki_ops x) (ki_rounds x) cf) (KIsap.isap_mac (ki_ops x) (ki_rounds x) cf) cf)
       (ApiCode.crypto_aead_decrypt (KIsap.isap_enc (ki_ops x) (ki_rounds x) cf) (KIsap.isap_mac (ki_ops x) (ki_rounds x) cf) cf).
