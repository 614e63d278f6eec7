(* More vocabulary of the theorem statements: implementations that compute ISAP under further conditions on the call. Definitions only;
   models no particular file of /repo. *)
From Verif Require Import Base SpecPerm Mem Vocab.
From Verif Require Spec.
Open Scope N_scope.

(* A condition on a call: memory, the pointers k, npub, ad with its length, the pointers to input and output text, the length of the text
   without tag. *)
Definition ext := mem -> ptr -> ptr -> ptr -> nat -> ptr -> ptr -> nat -> Prop.

(* The two functions compute ISAP on every valid call that meets the condition. *)
Record impl_ok_if (I : Spec.inst) (cf : cfg) (cs : list (list N)) (ex : ext) (X : aead) : Prop := {
  ioi_enc : forall mm c clen m ad npub k K Nn A T,
    ex mm k npub ad (length A) m c (length T) ->
    enc_valid cf cs mm c clen m ad npub k K Nn A T ->
    runs (a_enc X c clen m (N.of_nat (length T)) ad (N.of_nat (length A)) npub k) mm 0%Z
         (putp (putp mm clen (word_le 8 (N.of_nat (length T) + 16))) c (Spec.isap_encrypt I K Nn A T));
  ioi_dec : forall mm m mlen c ad npub k K Nn A Y,
    ex mm k npub ad (length A) c m (length Y - 16)%nat ->
    dec_valid cf cs mm m mlen c ad npub k K Nn A Y ->
    let m1 := putp mm mlen (word_le 8 (N.of_nat (length Y) - 16)) in
    runs (a_dec X m mlen c (N.of_nat (length Y)) ad (N.of_nat (length A)) npub k) mm
         (match Spec.isap_decrypt I K Nn A Y with Some _ => 0%Z | None => (-1)%Z end)
         (match Spec.isap_decrypt I K Nn A Y with Some T => putp m1 m T | None => m1 end) }.

(* Two implementations write the same bytes and return the same value, and neither changes anything else, on all valid calls with the same
   key, nonce, associated data and text that meet their conditions, wherever these are stored. Decryption writes the text only when it
   returns 0. *)
Definition agree_if (cf : cfg) (cs : list (list N)) (ex : ext) (X : aead)
                    (cf' : cfg) (cs' : list (list N)) (ex' : ext) (X' : aead) : Prop :=
  (forall mm c clen m ad npub k mm' c' clen' m' ad' npub' k' K Nn A T,
    ex mm k npub ad (length A) m c (length T) -> enc_valid cf cs mm c clen m ad npub k K Nn A T ->
    ex' mm' k' npub' ad' (length A) m' c' (length T) -> enc_valid cf' cs' mm' c' clen' m' ad' npub' k' K Nn A T ->
    exists r ct len, length ct = (length T + 16)%nat /\ length len = 8%nat /\
      runs (a_enc X c clen m (N.of_nat (length T)) ad (N.of_nat (length A)) npub k) mm r (putp (putp mm clen len) c ct) /\
      runs (a_enc X' c' clen' m' (N.of_nat (length T)) ad' (N.of_nat (length A)) npub' k') mm' r
           (putp (putp mm' clen' len) c' ct)) /\
  (forall mm m mlen c ad npub k mm' m' mlen' c' ad' npub' k' K Nn A Y,
    ex mm k npub ad (length A) c m (length Y - 16)%nat -> dec_valid cf cs mm m mlen c ad npub k K Nn A Y ->
    ex' mm' k' npub' ad' (length A) c' m' (length Y - 16)%nat -> dec_valid cf' cs' mm' m' mlen' c' ad' npub' k' K Nn A Y ->
    exists r txt len, length txt = (if Z.eqb r 0 then length Y - 16 else 0)%nat /\ length len = 8%nat /\
      runs (a_dec X m mlen c (N.of_nat (length Y)) ad (N.of_nat (length A)) npub k) mm r (putp (putp mm mlen len) m txt) /\
      runs (a_dec X' m' mlen' c' (N.of_nat (length Y)) ad' (N.of_nat (length A)) npub' k') mm' r
           (putp (putp mm' mlen' len) m' txt)).

(* Conditions: none; local arrays may only be placed in blocks satisfying loc; six further bytes (or fewer, when ad is not a multiple of 18
   bytes long) exist behind the last full 18-byte block of ad. *)
Definition any_call : ext := fun _ _ _ _ _ _ _ _ => True.
Definition loc_ext (loc : nat -> Prop) : ext := fun mm _ _ _ _ _ _ _ => forall b, (length mm <= b)%nat -> loc b.
Definition six_more : ext := fun mm _ _ ad alen _ _ _ => (alen < 18)%nat \/ room mm ad (18 * (alen / 18) + 6).
