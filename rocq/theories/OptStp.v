(* Model of the ISAP-A-128A implementations with the leakage-resilient tag comparison: isap.c and crypto_aead.c of
   isapa128av20/opt_32_stp, bi_32_stp and bi_32_armv6m_stp (the same two texts in the three directories, and in
   crypto_aead_hash). Line numbers are those of opt_32_stp. isap_enc (isap.c 199-237), isap_rk (50-102), ABSORB_LANES (11-44) and
   crypto_hash (245-274) have the text modelled in OptIsap.v. No proofs. *)
From Verif Require Import Base SpecPerm Mem Vocab OptPerm OptIsap.
From Verif Require Import RefIsap.
From Verif Require ApiCode.
Open Scope N_scope.
Open Scope cm_scope.

(* The global variables uint64_t s0, s1; isap.c 9: writable blocks 4 and 5, after the constants. *)
Definition S0 : ptr := P 4 0.
Definition S1 : ptr := P 5 0.

Section Stp.
  Variable a : asconp.
  Variable cf : cfg.
  Variable junk : state.      (* contents of an uninitialised state_t *)

  (* isap.c 108-150; the lines before and after 136-137 are those of opt_64. *)
  Definition isap_mac (k npub ad : ptr) (adlen : N) (c : ptr) (clen : N) (tag : ptr) : M unit :=
    s <- mac_state a cf npub ad adlen c clen ;;
    store_ull cf S0 (getx s 0) ;;
    store_ull cf S1 (getx s 1) ;;
    mac_tag a cf k s tag.

  (* asconp.h: P_PVP has 7 rounds (opt_32_stp/asconp.h 28). *)
  Definition P_PVP := perm a 7.
  (* isap.c 163-169, 174-180: one permuted tag *)
  Definition pvp_state (T : ptr) : M state :=
    l0 <- load_word a cf (padd T 0) ;;
    l1 <- load_word a cf (padd T 8) ;;
    x2 <- load_ull cf S0 ;;
    x3 <- load_ull cf S1 ;;
    P_PVP [l0; l1; x2; x3; 0].
  (* isap.c 184-187, 188-191 *)
  Definition count_eq (u v eq_cnt : N) : M N :=
    for_ 0 8 (fun i eq_cnt => ret (eq_cnt + (if byte_at u (N.to_nat i) =? byte_at v (N.to_nat i) then 1 else 0))) eq_cnt.
  (* isap.c 157-193, in two parts: U (160-172), then U' and the comparison (174-192) *)
  Definition pvp_first (T : ptr) : M (N * N) :=
    s <- pvp_state T ;;
    ret (getx s 0, getx s 1).
  Definition pvp_second (T_star : ptr) (u : N * N) : M N :=
    s <- pvp_state T_star ;;
    eq_cnt <- count_eq (getx s 0) (fst u) 0 ;;
    count_eq (getx s 1) (snd u) eq_cnt.
  Definition pvp (T T_star : ptr) : M N :=
    u <- pvp_first T ;;
    pvp_second T_star u.

  (* crypto_aead.c 5-28: the text of the other directories *)
  Definition crypto_aead_encrypt := ApiCode.crypto_aead_encrypt (OptIsap.isap_enc a cf junk) isap_mac cf.

  (* crypto_aead.c 49-52 *)
  Definition copy_tag (mlen c T_star : ptr) : M unit :=
    for_ 0 16 (fun i _ =>
      ml <- load_ull cf mlen ;;
      b <- load (padd c (u64 (ml + i))) ;;
      store (padd T_star i) b) tt.
  (* crypto_aead.c 55-67 *)
  Definition finish (m mlen c npub k : ptr) (eq_cnt : N) : M Z :=
    if_ (eq_cnt =? ISAP_TAG_SZ)
      (ml <- load_ull cf mlen ;;
       if_ (0 <? ml) (ml <- load_ull cf mlen ;; OptIsap.isap_enc a cf junk k npub c ml m) (ret tt) ;;
       ret 0%Z)
      (ret (-1)%Z).
  (* crypto_aead.c 47-67: after the computation of the tag T *)
  Definition compare_and_decrypt (m mlen c npub k T : ptr) : M Z :=
    with_block 16 (fun T_star =>
      copy_tag mlen c T_star ;;
      eq_cnt <- pvp T T_star ;;
      finish m mlen c npub k eq_cnt).
  (* crypto_aead.c 30-68 *)
  Definition crypto_aead_decrypt (m mlen c : ptr) (clen : N) (ad : ptr) (adlen : N) (npub k : ptr) : M Z :=
    store_ull cf mlen (sub64 clen ISAP_TAG_SZ) ;;
    with_block 16 (fun T =>
      ml <- load_ull cf mlen ;;
      isap_mac k npub ad adlen c ml T ;;
      compare_and_decrypt m mlen c npub k T).

  Definition stp_impl : aead := Aead crypto_aead_encrypt crypto_aead_decrypt.

  (* ---- Two threads. A thread runs in atomic steps; between two steps its local variables are private to it. The only cut made
     here is the one in pvp after isap.c 172: the globals s0 and s1 are read before and after it. ---- *)
  Inductive thread := Done (r : Z) | Run (step : M thread).

  (* crypto_aead.c 38-53 up to isap.c 172; u0, u1 and the contents of T_star are handed to the rest. *)
  Definition decrypt_first (mlen c : ptr) (clen : N) (ad : ptr) (adlen : N) (npub k : ptr) : M (N * N * list N) :=
    store_ull cf mlen (sub64 clen ISAP_TAG_SZ) ;;
    with_block 16 (fun T =>
      ml <- load_ull cf mlen ;;
      isap_mac k npub ad adlen c ml T ;;
      with_block 16 (fun T_star =>
        copy_tag mlen c T_star ;;
        u <- pvp_first T ;;
        t_star <- loads_ 16 T_star ;;
        ret (u, t_star))).
  (* isap.c 174-192, crypto_aead.c 55-67 *)
  Definition decrypt_second (m mlen c npub k : ptr) (x : N * N * list N) : M Z :=
    with_block 16 (fun T_star =>
      stores_ (snd x) T_star ;;
      eq_cnt <- pvp_second T_star (fst x) ;;
      finish m mlen c npub k eq_cnt).
  Definition decrypt_thread (m mlen c : ptr) (clen : N) (ad : ptr) (adlen : N) (npub k : ptr) : thread :=
    Run (x <- decrypt_first mlen c clen ad adlen npub k ;;
         ret (Run (r <- decrypt_second m mlen c npub k x ;; ret (Done r)))).
End Stp.

(* One step of a thread; a finished thread has nothing to do. *)
Definition step1 (t : thread) : M thread := match t with Done r => ret (Done r) | Run s => s end.
(* A schedule: which thread makes the next step (true: the first one). *)
Fixpoint schedule (l : list bool) (t u : thread) : M (thread * thread) :=
  match l with
  | [] => ret (t, u)
  | true :: l' => t' <- step1 t ;; schedule l' t' u
  | false :: l' => u' <- step1 u ;; schedule l' t u'
  end.
