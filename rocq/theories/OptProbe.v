(* isap.c of the optimised ISAP-A-128A implementations with a measuring device on the permutation: before every permutation `note` is run on the
   state, in the form in which the implementation holds it. Apart from `note` this is OptIsap.v, function by function, with the same line
   numbers (isapa128av20/opt_64/isap.c); C58_device_off proves that without a device it is that model. The device is not part of /repo.
   No proofs. *)
From Verif Require Import Base SpecPerm Mem Vocab OptPerm RefIsap.
From Verif Require Import OptIsap.
From Verif Require ApiCode.
Open Scope N_scope.
Open Scope cm_scope.

Section Opt.
  Variable a : asconp.
  Variable cf : cfg.
  Variable junk : state.
  Variable note : state -> M unit.

  (* asconp.h: P_sH, P_sB, P_sE, P_sK (opt_64/asconp.h 24-27), each preceded by the device. *)
  Definition perm (r : N) (s : state) : M state := note s ;; emit (EPerm r) ;; ret (PROUNDS a r s).
  Definition P_sH := perm 12.
  Definition P_sB := perm 1.
  Definition P_sE := perm 6.
  Definition P_sK := perm 12.

  (* lines 10-18 *)
  Definition absorb_full (st : state * ptr * N) : M (state * ptr * N) :=
    let '(s, src, len) := st in
    t0 <- load_word a cf (padd src 0) ;;
    let s := setx s 0 (N.lxor (getx s 0) t0) in
    s <- P_sH s ;;
    ret (s, padd src 8, sub64 len 8).
  (* lines 8-41 *)
  Definition ABSORB_LANES (s : state) (src : ptr) (len : N) : M state :=
    st <- while_ (S (N.to_nat (len / 8))) (fun st => 8 <=? snd st) absorb_full (s, src, len) ;;
    let '(s, src, len) := st in
    if_ (0 <? len)
      (tp <- for_ 0 len (fun i tp =>
         let '(t0, src) := tp in
         v <- load src ;;
         ret (xor_b t0 (7 - i) v, padd src 1)) (0, src) ;;
       let t0 := xor_b (fst tp) (7 - len) 0x80 in
       let t0 := TOBI a t0 in
       P_sH (setx s 0 (N.lxor (getx s 0) t0)))
      (P_sH (setx s 0 (xor_b (getx s 0) 7 0x80))).

  (* lines 47-99. y i is the read of y[i], from memory or from a state_t; the lanes of *out not written are kept. *)
  Definition isap_rk (k iv : ptr) (y : N -> M N) (out : state) (outlen : N) : M state :=
    l0 <- load_word a cf (padd k 0) ;;
    l1 <- load_word a cf (padd k 8) ;;
    l2 <- load_word a cf (padd iv 0) ;;
    s <- P_sK [l0; l1; l2; 0; 0] ;;
    sy <- for_ 0 16 (fun i sy =>
      let '(s, yi) := sy in
      y_byte <- y yi ;;
      s <- P_sB (rk_bit y_byte 0x80 0 s) ;;
      s <- P_sB (rk_bit y_byte 0x40 1 s) ;;
      s <- P_sB (rk_bit y_byte 0x20 2 s) ;;
      s <- P_sB (rk_bit y_byte 0x10 3 s) ;;
      s <- P_sB (rk_bit y_byte 0x08 4 s) ;;
      s <- P_sB (rk_bit y_byte 0x04 5 s) ;;
      s <- P_sB (rk_bit y_byte 0x02 6 s) ;;
      let s := rk_bit y_byte 0x01 7 s in
      if_ (negb (i =? 15)) (s <- P_sB s ;; ret (s, yi + 1)) (ret (s, yi))) (s, 0) ;;
    s <- P_sK (fst sy) ;;
    let out := setx (setx out 0 (getx s 0)) 1 (getx s 1) in
    if_ (16 <? outlen) (ret (setx out 2 (getx s 2))) (ret out).

  (* lines 105-143, up to the point where the MAC state is complete (130) *)
  Definition mac_state (npub ad : ptr) (adlen : N) (c : ptr) (clen : N) : M state :=
    l0 <- load_word a cf (padd npub 0) ;;
    l1 <- load_word a cf (padd npub 8) ;;
    l2 <- load_word a cf (padd ISAP_IV_A 0) ;;
    s <- P_sH [l0; l1; l2; 0; 0] ;;
    s <- ABSORB_LANES s ad adlen ;;
    let s := setx s 4 (N.lxor (getx s 4) 1) in
    ABSORB_LANES s c clen.
  (* lines 133-142 *)
  Definition mac_tag (k : ptr) (s : state) (tag : ptr) : M unit :=
    let s := setx s 0 (WORDTOU64 a (getx s 0)) in
    let s := setx s 1 (WORDTOU64 a (getx s 1)) in
    s <- isap_rk k ISAP_IV_KA (fun i => ret (byte_at (getx s (N.to_nat i / 8)) (N.to_nat i mod 8))) s CRYPTO_KEYBYTES ;;
    s <- P_sH s ;;
    put_lane (padd tag 0) (WORDTOU64 a (getx s 0)) ;;
    put_lane (padd tag 8) (WORDTOU64 a (getx s 1)).
  Definition isap_mac (k npub ad : ptr) (adlen : N) (c : ptr) (clen : N) (tag : ptr) : M unit :=
    s <- mac_state npub ad adlen c clen ;;
    mac_tag k s tag.

  (* lines 164-173 *)
  Definition enc_full (st : state * ptr * N * ptr) : M (state * ptr * N * ptr) :=
    let '(s, m, mlen, c) := st in
    s <- P_sE s ;;
    let t0 := WORDTOU64 a (getx s 0) in
    v <- load_ull cf m ;;
    store_ull cf c (N.lxor v t0) ;;
    ret (s, padd m 8, sub64 mlen 8, padd c 8).
  (* lines 149-187 *)
  Definition isap_enc (k npub m : ptr) (mlen : N) (c : ptr) : M unit :=
    s <- isap_rk k ISAP_IV_KE (fun i => load (padd npub i)) junk (40 - CRYPTO_NPUBBYTES) ;;
    l3 <- load_word a cf (padd npub 0) ;;
    let s := setx s 3 l3 in
    l4 <- load_word a cf (padd npub 8) ;;
    let s := setx s 4 l4 in
    st <- while_ (S (N.to_nat (mlen / 8))) (fun st => 8 <=? snd (fst st)) enc_full (s, m, mlen, c) ;;
    let '(s, m, mlen, c) := st in
    if_ (0 <? mlen)
      (s <- P_sE s ;;
       let t0 := WORDTOU64 a (getx s 0) in
       for_ 0 mlen (fun i mc =>
         let '(m, c) := mc in
         v <- load m ;;
         store c (N.lxor v (byte_at t0 (N.to_nat i))) ;;
         ret (padd m 1, padd c 1)) (m, c) ;;
       ret tt)
      (ret tt).
End Opt.

(* A device that records one number per permutation. *)
Definition record (leak : state -> N) (s : state) : M unit := emit (EPerm (leak s)).

(* crypto_aead.c over this isap.c (opt_impl of OptImpl.v with the device). *)
Definition probed_opt (a : asconp) (leak : state -> N) (cf : cfg) (junk : state) : aead :=
  let enc := isap_enc a cf junk (record leak) in
  let mac := isap_mac a cf (record leak) in
  Aead (ApiCode.crypto_aead_encrypt enc mac cf) (ApiCode.crypto_aead_decrypt enc mac cf).
