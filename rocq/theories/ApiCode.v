(* Model of crypto_aead.c over the two functions isap_enc and isap_mac that it calls. No proofs.
   Up to white space the file is the same in every directory of crypto_aead and crypto_aead_hash except isapa128av20/avx_512 and the three
   *_stp directories. Line numbers are those of isapa128av20/opt_64/crypto_aead.c. *)
From Verif Require Import Base SpecPerm Mem.
From Verif Require Import RefIsap.
Open Scope N_scope.
Open Scope cm_scope.

Section Api.
  Variable isap_enc : forall (k npub m : ptr) (mlen : N) (c : ptr), M unit.
  Variable isap_mac : forall (k npub ad : ptr) (adlen : N) (c : ptr) (clen : N) (tag : ptr), M unit.
  Variable cf : cfg.

  (* crypto_aead.c 5-27 *)
  Definition crypto_aead_encrypt (c clen m : ptr) (mlen : N) (ad : ptr) (adlen : N) (npub k : ptr) : M Z :=
    store_ull cf clen (u64 (mlen + ISAP_TAG_SZ)) ;;
    if_ (0 <? mlen) (isap_enc k npub m mlen c) (ret tt) ;;
    isap_mac k npub ad adlen c mlen (padd c mlen) ;;
    ret 0%Z.

  (* crypto_aead.c 29-61; *mlen is re-read from memory wherever the code reads it. *)
  Definition crypto_aead_decrypt (m mlen c : ptr) (clen : N) (ad : ptr) (adlen : N) (npub k : ptr) : M Z :=
    store_ull cf mlen (sub64 clen ISAP_TAG_SZ) ;;
    with_block 16 (fun tag =>
      ml <- load_ull cf mlen ;;
      isap_mac k npub ad adlen c ml tag ;;
      eq_cnt <- for_ 0 ISAP_TAG_SZ (fun i eq_cnt =>
        a <- load (padd tag i) ;;
        ml <- load_ull cf mlen ;;
        b <- load (padd c (u64 (ml + i))) ;;
        ret (eq_cnt + (if a =? b then 1 else 0))) 0 ;;
      if_ (eq_cnt =? ISAP_TAG_SZ)
        (ml <- load_ull cf mlen ;;
         if_ (0 <? ml) (ml <- load_ull cf mlen ;; isap_enc k npub c ml m) (ret tt) ;;
         ret 0%Z)
        (ret (-1)%Z)).
End Api.
