(* Property C09 (refuted) for the optimised implementations. Only statements: proofs are in ShortUb.v and ShortImpl.v. *)
From Verif Require Import Base SpecPerm Words Mem Vocab Vocab2 VocabK RefAead SpecFacts ApiProof ExLib OptPerm OptImpl OptEx A128Impl K64Impl KAvxImpl KArmPerm KArmImpl AvxAImpl
  OptStp Table ShortImpl.
Open Scope N_scope.

(* crypto_aead.c computes *mlen = clen - 16 without checking clen; isap_mac then reads 2^W - 16 + clen bytes at c, where W is the width of
   the type of its length. Every call with clen < 16 in which the object that c points into ends earlier is undefined, whatever the other
   arguments are. *)
Theorem C09_optimised_implementations cf W X mm m mlen c clen ad adlen npub k :
  optimised cf W X -> adlen < 2 ^ 64 -> clen < 16 -> room mm mlen 8 -> aligned cf mlen 8 = true -> (pb c < length mm)%nat ->
  N.of_nat (length (blk mm (pb c))) < po c + (2 ^ W - 16 + clen) ->
  forall t, a_dec X m mlen c clen ad adlen npub k (St mm t) = UB.
Proof. exact (short_optimised cf W X mm m mlen c clen ad adlen npub k). Qed.
Print Assumptions C09_optimised_implementations.

(* Hence the claim is false for all of them and every clen < 16: key, nonce, associated data and the clen bytes of ciphertext are there, in
   separate objects, together with any constants cs. *)
Theorem C09_optimised_implementations_refuted cf W X cs Y : optimised cf W X -> strict cf = false -> bytes Y -> (length Y < 16)%nat ->
  exists mm m mlen c ad npub k,
    consts_ok cs mm /\ bytes_at mm k ex_K /\ bytes_at mm npub ex_N /\ bytes_at mm ad ex_A /\ bytes_at mm c Y /\
    room mm mlen 8 /\ aligned cf mlen 8 = true /\
    forall t, a_dec X m mlen c (N.of_nat (length Y)) ad (N.of_nat (length ex_A)) npub k (St mm t) = UB.
Proof. exact (short_case cf W X cs Y). Qed.
Print Assumptions C09_optimised_implementations_refuted.

Example optimised_opt_64 : optimised lax_cf 64 (opt_impl opt_64 lax_cf (repeat 0 5)).
Proof. left. split; [reflexivity|]. now exists opt_64, (repeat 0 5). Qed.
Example optimised_armv7m f scr : optimised lax_cf 32 (impl_karm K128 f scr lax_cf).
Proof. do 7 right. split; [reflexivity|]. now exists K128, f, scr. Qed.
