(* Properties C09 (refuted) and C16-C18 of the reference implementation, in all four builds, for every build
   configuration. Only statements: proofs are in ShortCt.v and RefTrace2.v. *)
From Verif Require Import Base SpecPerm Words Mem Vocab MemProof RefLib Spec RefAead SpecFacts Api ApiProps ExLib ShortCt Trace RefTrace RefTrace2 PropsRef ExTrace.
Open Scope N_scope.

(* ---- C09: refuted. crypto_aead.c 37 computes *mlen = clen - 16 without checking clen. ---- *)

(* Every call with clen < 16 (key, nonce, associated data readable, length cell separate from the ciphertext object) in
   which the readable bytes at c end somewhere before 2^64 - 16 runs into undefined behaviour: the MAC is computed over
   2^64 + clen - 16 bytes at c. *)
Theorem C09_short_ciphertext_is_undefined v cf mm m mlen c clen ad npub k Nn A Y :
  ref_locals v cf mm -> clen < 16 -> consts_ok (ref_consts (v_macros v)) mm ->
  bytes_at mm npub Nn -> length Nn = 16%nat -> bytes_at mm ad A ->
  bytes_at mm c Y -> rd1 mm (padd c (N.of_nat (length Y))) = None -> N.of_nat (length Y) < 2 ^ 64 - 16 ->
  (pb c < length mm)%nat ->
  room mm mlen 8 -> (3 <= pb mlen)%nat -> aligned cf mlen 8 = true ->
  disj mlen 8 npub 16 -> disj mlen 8 ad (length A) -> pb mlen <> pb c ->
  forall t, a_dec (ref_impl v cf) m mlen c clen ad (N.of_nat (length A)) npub k (St mm t) = UB.
Proof. exact (ref_short_ub v cf mm m mlen c clen ad npub k Nn A Y). Qed.
Print Assumptions C09_short_ciphertext_is_undefined.

(* Hence the claim is false in every build, for every clen < 16. *)
Theorem C09_short_ciphertext_refuted v Y : bytes Y -> (length Y < 16)%nat ->
  exists mm m mlen c ad npub k,
    ref_locals v ex_cf mm /\ consts_ok (ref_consts (v_macros v)) mm /\
    bytes_at mm k ex_K /\ bytes_at mm npub ex_N /\ bytes_at mm ad ex_A /\ bytes_at mm c Y /\
    room mm mlen 8 /\ aligned ex_cf mlen 8 = true /\
    forall t, a_dec (ref_impl v ex_cf) m mlen c (N.of_nat (length Y)) ad (N.of_nat (length ex_A)) npub k (St mm t) = UB.
Proof. exact (ref_short_case v Y). Qed.
Print Assumptions C09_short_ciphertext_refuted.

(* ---- C16 ---- *)

Theorem C16_encryption_trace_independent_of_data v cf mm mm' c clen m ad npub k K Nn A T K' Nn' A' T' :
  ref_locals v cf mm ->
  ref_enc_valid v cf mm c clen m ad npub k K Nn A T ->
  ref_enc_valid v cf mm' c clen m ad npub k K' Nn' A' T' ->
  length A = length A' -> length T = length T' -> layout mm mm' ->
  forall t, exists s s',
    ref_encrypt v cf c clen m T ad A npub k (St mm t) = Ok 0%Z s /\
    ref_encrypt v cf c clen m T ad A npub k (St mm' t) = Ok 0%Z s' /\
    strc s = strc s'.
Proof. exact (v_enc_trace v cf mm mm' c clen m ad npub k K Nn A T K' Nn' A' T'). Qed.
Print Assumptions C16_encryption_trace_independent_of_data.

(* The hypotheses hold of two calls with completely different data. *)
Example C16_case v : exists mm mm' c clen m ad npub k,
  ref_locals v ex_cf mm /\
  ref_enc_valid v ex_cf mm c clen m ad npub k ex_K ex_N ex_A ex_T /\
  ref_enc_valid v ex_cf mm' c clen m ad npub k ex_N ex_K (rev ex_A) (rev ex_T) /\ layout mm mm' /\
  ex_K <> ex_N /\ ex_A <> rev ex_A /\ ex_T <> rev ex_T.
Proof. exact (trace_case v). Qed.

(* ---- C17 ---- *)

Theorem C17_decryption_trace_depends_only_on_verdict v cf mm mm' m mlen c ad npub k K Nn A Y K' Nn' A' Y' :
  ref_locals v cf mm ->
  ref_dec_valid v cf mm m mlen c ad npub k K Nn A Y ->
  ref_dec_valid v cf mm' m mlen c ad npub k K' Nn' A' Y' ->
  length A = length A' -> length Y = length Y' -> layout mm mm' ->
  forall t, exists r s r' s' t0 u u',
    ref_decrypt v cf m mlen c Y ad A npub k (St mm t) = Ok r s /\
    ref_decrypt v cf m mlen c Y ad A npub k (St mm' t) = Ok r' s' /\
    (* the most recent event comes first: t0 is common, then the verdict branch, then u / u' *)
    strc s = u ++ EBr (r =? 0)%Z :: t0 /\ strc s' = u' ++ EBr (r' =? 0)%Z :: t0 /\
    (r <> 0%Z -> u = []) /\ (r' <> 0%Z -> u' = []) /\ (r = r' -> u = u').
Proof. exact (v_dec_trace v cf mm mm' m mlen c ad npub k K Nn A Y K' Nn' A' Y'). Qed.
Print Assumptions C17_decryption_trace_depends_only_on_verdict.

(* Two calls with the same layout, one accepted and one rejected. *)
Example C17_case v : exists mm mm' m mlen c ad npub k Y Y' m1 m1',
  ref_locals v ex_cf mm /\
  ref_dec_valid v ex_cf mm m mlen c ad npub k ex_K ex_N ex_A Y /\
  ref_dec_valid v ex_cf mm' m mlen c ad npub k ex_K ex_N ex_A Y' /\ length Y = length Y' /\ layout mm mm' /\
  runs (ref_decrypt v ex_cf m mlen c Y ad ex_A npub k) mm 0%Z m1 /\
  runs (ref_decrypt v ex_cf m mlen c Y' ad ex_A npub k) mm' (-1)%Z m1'.
Proof. exact (dec_trace_case v). Qed.

(* ---- C18 ---- *)

Theorem C18_encryption_work v cf mm c clen m ad npub k K Nn A T :
  ref_locals v cf mm -> ref_enc_valid v cf mm c clen m ad npub k K Nn A T ->
  forall t, exists s,
    ref_encrypt v cf c clen m T ad A npub k (St mm t) = Ok 0%Z s /\
    perms (strc s) = perms t ++ calls_enc (v_inst v) (length T) ++ calls_mac (v_inst v) (length A) (length T).
Proof. exact (v_enc_calls v cf mm c clen m ad npub k K Nn A T). Qed.
Print Assumptions C18_encryption_work.

Theorem C18_decryption_work v cf mm m mlen c ad npub k K Nn A Y :
  ref_locals v cf mm -> ref_dec_valid v cf mm m mlen c ad npub k K Nn A Y ->
  forall t, exists r s,
    ref_decrypt v cf m mlen c Y ad A npub k (St mm t) = Ok r s /\
    perms (strc s) = perms t ++ calls_mac (v_inst v) (length A) (length Y - 16) ++
      (if (r =? 0)%Z then calls_enc (v_inst v) (length Y - 16) else []).
Proof. exact (v_dec_calls v cf mm m mlen c ad npub k K Nn A Y). Qed.
Print Assumptions C18_decryption_work.

(* Numbers of calls and total numbers of rounds behind these lists. *)
Theorem C18_work_formula v a n :
  let I := v_inst v in
  length (calls_mac I a n) = (a / i_rate I + n / i_rate I + 133)%nat /\
  length (calls_enc I n) = (if n =? 0 then 0 else 129 + (n + i_rate I - 1) / i_rate I)%nat /\
  fold_right N.add 0 (calls_mac I a n) =
    N.of_nat (i_sH I * (a / i_rate I + n / i_rate I + 4) + 2 * i_sK I + 127 * i_sB I) /\
  fold_right N.add 0 (calls_enc I n) =
    N.of_nat (if (n =? 0)%nat then 0 else 2 * i_sK I + 127 * i_sB I + i_sE I * ((n + i_rate I - 1) / i_rate I)).
Proof. exact (v_work_formula v a n). Qed.
Print Assumptions C18_work_formula.
