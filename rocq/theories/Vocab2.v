(* More vocabulary of the theorem statements: agreement of two implementations. Definitions only; models no particular file
   of /repo. *)
From Verif Require Import Base SpecPerm Mem Vocab.
From Verif Require Spec.
Open Scope N_scope.

(* Local arrays may be placed in any block that is not yet in use. *)
Definition locals (loc : nat -> Prop) (mm : mem) : Prop := forall b, (length mm <= b)%nat -> loc b.

(* Two implementations (each with its own configuration, constants and condition on local arrays) write the same bytes and return the
   same value, and neither changes anything else, on all valid calls with the same key, nonce, associated data and text, wherever
   these are stored. *)
Definition enc_agree (cf : cfg) (cs : list (list N)) (loc : nat -> Prop) (X : aead)
                     (cf' : cfg) (cs' : list (list N)) (loc' : nat -> Prop) (X' : aead) : Prop :=
  forall mm c clen m ad npub k mm' c' clen' m' ad' npub' k' K Nn A T,
    locals loc mm -> enc_valid cf cs mm c clen m ad npub k K Nn A T ->
    locals loc' mm' -> enc_valid cf' cs' mm' c' clen' m' ad' npub' k' K Nn A T ->
    exists r ct len, length ct = (length T + 16)%nat /\ length len = 8%nat /\
      runs (a_enc X c clen m (N.of_nat (length T)) ad (N.of_nat (length A)) npub k) mm r (putp (putp mm clen len) c ct) /\
      runs (a_enc X' c' clen' m' (N.of_nat (length T)) ad' (N.of_nat (length A)) npub' k') mm' r
           (putp (putp mm' clen' len) c' ct).
(* Decryption writes the text only when it returns 0. *)
Definition dec_agree (cf : cfg) (cs : list (list N)) (loc : nat -> Prop) (X : aead)
                     (cf' : cfg) (cs' : list (list N)) (loc' : nat -> Prop) (X' : aead) : Prop :=
  forall mm m mlen c ad npub k mm' m' mlen' c' ad' npub' k' K Nn A Y,
    locals loc mm -> dec_valid cf cs mm m mlen c ad npub k K Nn A Y ->
    locals loc' mm' -> dec_valid cf' cs' mm' m' mlen' c' ad' npub' k' K Nn A Y ->
    exists r txt len, length txt = (if Z.eqb r 0 then length Y - 16 else 0)%nat /\ length len = 8%nat /\
      runs (a_dec X m mlen c (N.of_nat (length Y)) ad (N.of_nat (length A)) npub k) mm r (putp (putp mm mlen len) m txt) /\
      runs (a_dec X' m' mlen' c' (N.of_nat (length Y)) ad' (N.of_nat (length A)) npub' k') mm' r
           (putp (putp mm' mlen' len) m' txt).
Definition agree cf cs loc X cf' cs' loc' X' : Prop :=
  enc_agree cf cs loc X cf' cs' loc' X' /\ dec_agree cf cs loc X cf' cs' loc' X'.

(* The same for calls whose associated data and text are shorter than lim bytes. *)
Definition agree_upto (lim : N) (cf : cfg) (cs : list (list N)) (loc : nat -> Prop) (X : aead)
                      (cf' : cfg) (cs' : list (list N)) (loc' : nat -> Prop) (X' : aead) : Prop :=
  (forall mm c clen m ad npub k mm' c' clen' m' ad' npub' k' K Nn A T,
    N.of_nat (length A) < lim -> N.of_nat (length T) < lim ->
    locals loc mm -> enc_valid cf cs mm c clen m ad npub k K Nn A T ->
    locals loc' mm' -> enc_valid cf' cs' mm' c' clen' m' ad' npub' k' K Nn A T ->
    exists r ct len, length ct = (length T + 16)%nat /\ length len = 8%nat /\
      runs (a_enc X c clen m (N.of_nat (length T)) ad (N.of_nat (length A)) npub k) mm r (putp (putp mm clen len) c ct) /\
      runs (a_enc X' c' clen' m' (N.of_nat (length T)) ad' (N.of_nat (length A)) npub' k') mm' r
           (putp (putp mm' clen' len) c' ct)) /\
  (forall mm m mlen c ad npub k mm' m' mlen' c' ad' npub' k' K Nn A Y,
    N.of_nat (length A) < lim -> N.of_nat (length Y) - 16 < lim ->
    locals loc mm -> dec_valid cf cs mm m mlen c ad npub k K Nn A Y ->
    locals loc' mm' -> dec_valid cf' cs' mm' m' mlen' c' ad' npub' k' K Nn A Y ->
    exists r txt len, length txt = (if Z.eqb r 0 then length Y - 16 else 0)%nat /\ length len = 8%nat /\
      runs (a_dec X m mlen c (N.of_nat (length Y)) ad (N.of_nat (length A)) npub k) mm r (putp (putp mm mlen len) m txt) /\
      runs (a_dec X' m' mlen' c' (N.of_nat (length Y)) ad' (N.of_nat (length A)) npub' k') mm' r
           (putp (putp mm' mlen' len) m' txt)).

(* Storage without any condition on local arrays. *)
Definition no_cond (b : nat) : Prop := True.

(* Every 8-byte access at a multiple of 8 bytes from p is aligned, on a machine that cares. *)
Definition al8 (cf : cfg) (p : ptr) : Prop := forall i, aligned cf (padd p (8 * N.of_nat i)) 8 = true.

(* ---- Implementations with two global 8-byte variables, at g0 and g1. ---- *)
(* The globals exist (whatever they contain) and overlap none of the given buffers. *)
Definition apart (mm : mem) (g0 g1 : ptr) (bufs : list (ptr * nat)) : Prop :=
  room mm g0 8 /\ room mm g1 8 /\ Forall (fun b => disj g0 8 (fst b) (snd b) /\ disj g1 8 (fst b) (snd b)) bufs.

(* The tag comparison of the STP implementations (ISAP-A-128A). The MAC state after nonce, associated data and ciphertext body have been
   absorbed: *)
Definition mac_st (Nn A C : list N) : list N :=
  let I := Spec.ISAP_A_128A in
  Spec.absorb I (Spec.dom_sep I (Spec.absorb I (ascon_p 12 (Spec.zpad I (Nn ++ Spec.iv_A I)))
    (chunks 8 (Spec.pad 8 A)))) (chunks 8 (Spec.pad 8 C)).
(* 128 bits of the 7-round permutation of tag t, the first 16 bytes of the MAC state s, and 8 zero bytes. *)
Definition image (t s : list N) : list N := firstn 16 (ascon_p 7 (t ++ firstn 16 s ++ repeat 0 8)).
(* The images of the received tag (the last 16 bytes of Y) and of the ISAP tag of the rest of Y are equal. *)
Definition accepts (K Nn A Y : list N) : Prop :=
  let C := firstn (length Y - 16) Y in
  let t := skipn (length Y - 16) Y in
  image t (mac_st Nn A C) = image (Spec.isap_mac Spec.ISAP_A_128A K Nn A C) (mac_st Nn A C).
