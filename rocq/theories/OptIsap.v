(* Model of isap.c of the optimised ISAP-A-128A implementations: one text shared (up to the inlining attribute of
   ABSORB_LANES) by all crypto_aead/isapa128av20 and crypto_aead_hash/isapa128av20 directories except ref, avx_512 and the
   *_stp ones. Line numbers are those of isapa128av20/opt_64/isap.c. No proofs.
   A state_t is modelled as the list of its five 64-bit lanes x[0..4]; l[i] is the same lane, b[i][j] is byte j of
   lane i from the least significant, w[i][0] its low half (little-endian machine, union of asconp.h 7-20). Accesses to
   such local unions are not memory events; accesses through pointer arguments are. *)
From Verif Require Import Base SpecPerm Mem OptPerm.
From Verif Require Import RefIsap.
Open Scope N_scope.
Open Scope cm_scope.

Definition state := list N.
Definition getx (s : state) (i : nat) : N := nth i s 0.
Definition setx (s : state) (i : nat) (v : N) : state := upd_nth s i v.
(* lane.b[j] ^= v *)
Definition xor_b (t j v : N) : N := N.lxor t (N.shiftl (u8 v) (8 * j)).

(* config.h 14: block 3. *)
Definition ASCON_HASH_IV : ptr := P 3 0.
Definition ASCON_HASH_IV_bytes : list N := [0x00; 0x40; 0x0c; 0x00; 0x00; 0x00; 0x01; 0x00].

Section Opt.
  Variable a : asconp.
  Variable cf : cfg.
  Variable junk : state.      (* contents of an uninitialised state_t *)

  (* asconp.h: P_sH, P_sB, P_sE, P_sK with 12, 1, 6, 12 rounds in every directory (opt_64/asconp.h 24-27). *)
  Definition perm (r : N) (s : state) : M state := emit (EPerm r) ;; ret (PROUNDS a r s).
  Definition P_sH := perm 12.
  Definition P_sB := perm 1.
  Definition P_sE := perm 6.
  Definition P_sK := perm 12.

  (* U64TOWORD applied to the lane at p, accessed as a lane_t. *)
  Definition load_word (p : ptr) : M N := v <- load_ull cf p ;; ret (U64TOWORD a v).

  (* lines 10-18 *)
  Definition absorb_full (st : state * ptr * N) : M (state * ptr * N) :=
    let '(s, src, len) := st in
    t0 <- load_word (padd src 0) ;;
    let s := setx s 0 (N.lxor (getx s 0) t0) in
    s <- P_sH s ;;
    ret (s, padd src 8, sub64 len 8).
  (* lines 8-41 *)
  Definition ABSORB_LANES (s : state) (src : ptr) (len : N) : M state :=
    st <- while_ (S (N.to_nat (len / 8))) (fun st => 8 <=? snd st) absorb_full (s, src, len) ;;
    let '(s, src, len) := st in
    if_ (0 <? len)
      (tp <- for_ 0 len (fun i tp =>
         let '(t0, src) := tp in
         v <- load src ;;
         ret (xor_b t0 (7 - i) v, padd src 1)) (0, src) ;;
       let t0 := xor_b (fst tp) (7 - len) 0x80 in
       let t0 := TOBI a t0 in
       P_sH (setx s 0 (N.lxor (getx s 0) t0)))
      (P_sH (setx s 0 (xor_b (getx s 0) 7 0x80))).

  (* One bit of y_byte to s->b[0][7], then P_sB: lines 69-70 etc. *)
  Definition rk_bit (y_byte mask sh : N) (s : state) : state :=
    setx s 0 (xor_b (getx s 0) 7 (N.shiftl (N.land y_byte mask) sh)).
  (* lines 47-99. y i is the read of y[i], from memory or from a state_t; the lanes of *out not written are kept. *)
  Definition isap_rk (k iv : ptr) (y : N -> M N) (out : state) (outlen : N) : M state :=
    l0 <- load_word (padd k 0) ;;
    l1 <- load_word (padd k 8) ;;
    l2 <- load_word (padd iv 0) ;;
    s <- P_sK [l0; l1; l2; 0; 0] ;;
    sy <- for_ 0 16 (fun i sy =>
      let '(s, yi) := sy in
      y_byte <- y yi ;;
      s <- P_sB (rk_bit y_byte 0x80 0 s) ;;
      s <- P_sB (rk_bit y_byte 0x40 1 s) ;;
      s <- P_sB (rk_bit y_byte 0x20 2 s) ;;
      s <- P_sB (rk_bit y_byte 0x10 3 s) ;;
      s <- P_sB (rk_bit y_byte 0x08 4 s) ;;
      s <- P_sB (rk_bit y_byte 0x04 5 s) ;;
      s <- P_sB (rk_bit y_byte 0x02 6 s) ;;
      let s := rk_bit y_byte 0x01 7 s in
      if_ (negb (i =? 15)) (s <- P_sB s ;; ret (s, yi + 1)) (ret (s, yi))) (s, 0) ;;
    s <- P_sK (fst sy) ;;
    let out := setx (setx out 0 (getx s 0)) 1 (getx s 1) in
    if_ (16 <? outlen) (ret (setx out 2 (getx s 2))) (ret out).

  (* memcpy from a local lane *)
  Definition put_lane (p : ptr) (v : N) : M unit := emit (EWr p 8) ;; stores_ (word_le 8 v) p.

  (* lines 105-143, up to the point where the MAC state is complete (130) *)
  Definition mac_state (npub ad : ptr) (adlen : N) (c : ptr) (clen : N) : M state :=
    l0 <- load_word (padd npub 0) ;;
    l1 <- load_word (padd npub 8) ;;
    l2 <- load_word (padd ISAP_IV_A 0) ;;
    s <- P_sH [l0; l1; l2; 0; 0] ;;
    s <- ABSORB_LANES s ad adlen ;;
    let s := setx s 4 (N.lxor (getx s 4) 1) in
    ABSORB_LANES s c clen.
  (* lines 133-142 *)
  Definition mac_tag (k : ptr) (s : state) (tag : ptr) : M unit :=
    let s := setx s 0 (WORDTOU64 a (getx s 0)) in
    let s := setx s 1 (WORDTOU64 a (getx s 1)) in
    s <- isap_rk k ISAP_IV_KA (fun i => ret (byte_at (getx s (N.to_nat i / 8)) (N.to_nat i mod 8))) s CRYPTO_KEYBYTES ;;
    s <- P_sH s ;;
    put_lane (padd tag 0) (WORDTOU64 a (getx s 0)) ;;
    put_lane (padd tag 8) (WORDTOU64 a (getx s 1)).
  Definition isap_mac (k npub ad : ptr) (adlen : N) (c : ptr) (clen : N) (tag : ptr) : M unit :=
    s <- mac_state npub ad adlen c clen ;;
    mac_tag k s tag.

  (* lines 164-173 *)
  Definition enc_full (st : state * ptr * N * ptr) : M (state * ptr * N * ptr) :=
    let '(s, m, mlen, c) := st in
    s <- P_sE s ;;
    let t0 := WORDTOU64 a (getx s 0) in
    v <- load_ull cf m ;;
    store_ull cf c (N.lxor v t0) ;;
    ret (s, padd m 8, sub64 mlen 8, padd c 8).
  (* lines 149-187 *)
  Definition isap_enc (k npub m : ptr) (mlen : N) (c : ptr) : M unit :=
    s <- isap_rk k ISAP_IV_KE (fun i => load (padd npub i)) junk (40 - CRYPTO_NPUBBYTES) ;;
    l3 <- load_word (padd npub 0) ;;
    let s := setx s 3 l3 in
    l4 <- load_word (padd npub 8) ;;
    let s := setx s 4 l4 in
    st <- while_ (S (N.to_nat (mlen / 8))) (fun st => 8 <=? snd (fst st)) enc_full (s, m, mlen, c) ;;
    let '(s, m, mlen, c) := st in
    if_ (0 <? mlen)
      (s <- P_sE s ;;
       let t0 := WORDTOU64 a (getx s 0) in
       for_ 0 mlen (fun i mc =>
         let '(m, c) := mc in
         v <- load m ;;
         store c (N.lxor v (byte_at t0 (N.to_nat i))) ;;
         ret (padd m 1, padd c 1)) (m, c) ;;
       ret tt)
      (ret tt).

  (* lines 195-224 (compiled when ENABLE_HASH is 1, crypto_aead_hash) *)
  Definition crypto_hash (out in_ : ptr) (inlen : N) : M Z :=
    l0 <- load_word (padd ASCON_HASH_IV 0) ;;
    s <- P_sH [l0; 0; 0; 0; 0] ;;
    s <- ABSORB_LANES s in_ inlen ;;
    for_ 0 4 (fun i s =>
      let t0 := WORDTOU64 a (getx s 0) in
      store_ull cf (padd out (8 * i)) t0 ;;
      if_ (i <? 3) (P_sH s) (ret s)) s ;;
    ret 0%Z.
End Opt.
