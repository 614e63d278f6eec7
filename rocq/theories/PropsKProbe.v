(* Property C60: the states on which the Keccak implementations isapk128v20/opt_64 (K64_128), isapk128av20/opt_64 (K64_128a) and
   isapk128av20/avx512 (Kavx_128a) call their permutation. ki_ok x: the uninitialised variables have the right number and size; ki_ext x: the
   bytes behind the associated data that opt_64 reads exist (C29; nothing for avx512). Only statements: proofs are in KProbeProof.v and
   KProbeTop.v. *)
From Verif Require Import Base SpecPerm Words Mem Vocab Vocab2 VocabK RefProof RefAead SpecFacts Api ApiProps ExLib ExtProof OptEx VocabProbe.
From Verif Require Import OptProbeTop K64Perm KIsap KAvxPerm K64Impl KAvxImpl KProbeTop.
From Verif Require KProbe.
Import KProbe(kimpl, K64_128, K64_128a, Kavx_128a, ki_ops, ki_rounds, probed_k, plain_k).
From Verif Require Import Spec.
Open Scope N_scope.

Notation probed_encrypt x leak cf c clen m T ad A npub k :=
  (a_enc (probed_k x leak cf) c clen m (N.of_nat (length T)) ad (N.of_nat (length A)) npub k) (only parsing).
Notation probed_decrypt x leak cf m mlen c Y ad A npub k :=
  (a_dec (probed_k x leak cf) m mlen c (N.of_nat (length Y)) ad (N.of_nat (length A)) npub k) (only parsing).

(* Without the device the model is that of C29 and C32. *)
Theorem C60_device_off cf :
  (forall x, KProbe.isap_enc (ki_ops x) (ki_rounds x) cf (fun _ => ret tt) = KIsap.isap_enc (ki_ops x) (ki_rounds x) cf /\
             KProbe.isap_mac (ki_ops x) (ki_rounds x) cf (fun _ => ret tt) = KIsap.isap_mac (ki_ops x) (ki_rounds x) cf) /\
  (forall scr, plain_k (K64_128 scr) cf = impl_k64 K128 scr cf) /\ (forall scr, plain_k (K64_128a scr) cf = impl_k64 K128A scr cf) /\
  (forall junk scr, plain_k (Kavx_128a junk scr) cf = impl_kavx junk scr cf).
Proof. exact (conj (fun x => ki_device_off x cf) (ki_plain cf)). Qed.
Print Assumptions C60_device_off.

(* Encryption permutes exactly the listed states, in this order, whatever the device computes from them; the device changes neither the result
   nor the memory. *)
Theorem C60_encryption_states x leak cf mm c clen m ad npub k K Nn A T : ki_ok x -> strict cf = false ->
  ki_ext x mm k npub ad (length A) m c (length T) -> enc_valid cf (csK (ki_v x)) mm c clen m ad npub k K Nn A T ->
  let I := v_inst (ki_v x) in
  exists m1,
    runs (a_enc (plain_k x cf) c clen m (N.of_nat (length T)) ad (N.of_nat (length A)) npub k) mm 0%Z m1 /\
    logs (probed_encrypt x leak cf c clen m T ad A npub k) mm 0%Z m1
      (seen leak (enc_in I K Nn (length T) ++ mac_in I K Nn A (isap_enc I K Nn T))).
Proof. exact (kx_enc_same x leak cf mm c clen m ad npub k K Nn A T). Qed.
Print Assumptions C60_encryption_states.

Theorem C60_decryption_states x leak cf mm m mlen c ad npub k K Nn A Y : ki_ok x -> strict cf = false ->
  ki_ext x mm k npub ad (length A) c m (length Y - 16)%nat -> dec_valid cf (csK (ki_v x)) mm m mlen c ad npub k K Nn A Y ->
  let I := v_inst (ki_v x) in
  exists r m1,
    runs (a_dec (plain_k x cf) m mlen c (N.of_nat (length Y)) ad (N.of_nat (length A)) npub k) mm r m1 /\
    logs (probed_decrypt x leak cf m mlen c Y ad A npub k) mm r m1
      (seen leak (mac_in I K Nn A (firstn (length Y - 16) Y) ++ if (r =? 0)%Z then enc_in I K Nn (length Y - 16) else [])) /\
    (r = 0%Z <-> skipn (length Y - 16) Y = isap_mac I K Nn A (firstn (length Y - 16) Y)).
Proof. exact (kx_dec_same x leak cf mm m mlen c ad npub k K Nn A Y). Qed.
Print Assumptions C60_decryption_states.

(* Decryption: the calls before the last re-keying depend neither on the key nor on the implementation (w: K128 or K128A). *)
Theorem C60_hash_without_key w Nn A Y : exists h, forall x cf mm m mlen c ad npub k K, ki_v x = w -> ki_ok x -> strict cf = false ->
  ki_ext x mm k npub ad (length A) c m (length Y - 16)%nat -> dec_valid cf (csK w) mm m mlen c ad npub k K Nn A Y ->
  exists R z r m1, length R = 129%nat /\
    forall leak, logs (probed_decrypt x leak cf m mlen c Y ad A npub k) mm r m1
      (seen leak (h ++ R ++ [z] ++ if (r =? 0)%Z then enc_in (v_inst w) K Nn (length Y - 16) else [])).
Proof. exact (kx_dec_public w Nn A Y). Qed.
Print Assumptions C60_hash_without_key.

(* Any two decryptions under one key, by the same implementation or by two different ones of the same instance. *)
Theorem C60_decryptions_two_limited w x cf mm m mlen c ad npub k K Nn A Y x' cf' mm' m' mlen' c' ad' npub' k' Nn' A' Y' :
  ki_v x = w -> ki_ok x -> strict cf = false -> ki_ext x mm k npub ad (length A) c m (length Y - 16)%nat ->
  dec_valid cf (csK w) mm m mlen c ad npub k K Nn A Y ->
  ki_v x' = w -> ki_ok x' -> strict cf' = false -> ki_ext x' mm' k' npub' ad' (length A') c' m' (length Y' - 16)%nat ->
  dec_valid cf' (csK w) mm' m' mlen' c' ad' npub' k' K Nn' A' Y' ->
  exists h R z e r m1 h' R' z' e' r' m1',
    two_limited R R' /\
    (forall leak, logs (probed_decrypt x leak cf m mlen c Y ad A npub k) mm r m1 (seen leak (h ++ R ++ [z] ++ e))) /\
    (forall leak, logs (probed_decrypt x' leak cf' m' mlen' c' Y' ad' A' npub' k') mm' r' m1' (seen leak (h' ++ R' ++ [z'] ++ e'))) /\
    h = hash_in (v_inst w) Nn A (firstn (length Y - 16) Y) /\ h' = hash_in (v_inst w) Nn' A' (firstn (length Y' - 16) Y') /\
    (r <> 0%Z -> e = []) /\ (r' <> 0%Z -> e' = []).
Proof.
  exact (kx_dec_two w x cf mm m mlen c ad npub k K Nn A Y x' cf' mm' m' mlen' c' ad' npub' k' Nn' A' Y').
Qed.
Print Assumptions C60_decryptions_two_limited.

(* Any two encryptions of non-empty messages under one key. *)
Theorem C60_encryptions_two_limited w x cf mm c clen m ad npub k K Nn A T x' cf' mm' c' clen' m' ad' npub' k' Nn' A' T' :
  ki_v x = w -> ki_ok x -> strict cf = false -> ki_ext x mm k npub ad (length A) m c (length T) ->
  enc_valid cf (csK w) mm c clen m ad npub k K Nn A T -> T <> [] ->
  ki_v x' = w -> ki_ok x' -> strict cf' = false -> ki_ext x' mm' k' npub' ad' (length A') m' c' (length T') ->
  enc_valid cf' (csK w) mm' c' clen' m' ad' npub' k' K Nn' A' T' -> T' <> [] ->
  exists Q e h R z m1 Q' e' h' R' z' m1',
    two_limited Q Q' /\ two_limited R R' /\
    (forall leak, logs (probed_encrypt x leak cf c clen m T ad A npub k) mm 0%Z m1 (seen leak (Q ++ e ++ h ++ R ++ [z]))) /\
    (forall leak, logs (probed_encrypt x' leak cf' c' clen' m' T' ad' A' npub' k') mm' 0%Z m1' (seen leak (Q' ++ e' ++ h' ++ R' ++ [z']))) /\
    length e = ((length T + 18 - 1) / 18)%nat /\ length e' = ((length T' + 18 - 1) / 18)%nat /\
    (Nn = Nn' -> length T = length T' -> Q = Q' /\ e = e').
Proof.
  exact (kx_enc_two w x cf mm c clen m ad npub k K Nn A T x' cf' mm' c' clen' m' ad' npub' k' Nn' A' T').
Qed.
Print Assumptions C60_encryptions_two_limited.

(* ---- The hypotheses can be met: by each implementation, 24 bytes of associated data with nothing behind them. ---- *)

Definition ex_A24 : list N := map N.of_nat (seq 1 24).
Definition ex_impls : list kimpl := [K64_128 ex_scr; K64_128a ex_scr; Kavx_128a ex_junk ex_vscr].
Example C60_enc_case x : In x ex_impls -> exists mm c clen m ad npub k,
  ki_ok x /\ strict lax_cf = false /\ ki_ext x mm k npub ad (length ex_A24) m c (length ex_T) /\
  enc_valid lax_cf (csK (ki_v x)) mm c clen m ad npub k ex_K ex_N ex_A24 ex_T /\ ex_T <> [].
Proof.
  intros Hx. assert (Ok : ki_ok x) by (destruct Hx as [<- | [<- | [<- | []]]]; cbn [ki_ok]; auto using ex_scr_ok, ex_junk_ok, ex_vscr_ok).
  eexists _, _, _, _, _, _, _. split; [exact Ok|]. split; [reflexivity|]. split; [|split; [|discriminate]].
  2:{ apply (ex_enc_valid lax_cf (csK (ki_v x)) ex_K ex_N ex_A24 ex_T); auto using ex_bytes_K, ex_bytes_N, ex_bytes_T; try reflexivity.
      unfold ex_A24. repeat constructor; cbn; lia. }
  destruct x; cbn [ki_ext]; [right; apply ex_room; cbn; lia|right; apply ex_room; cbn; lia|exact Logic.I].
Qed.
Example C60_dec_case x Y : In x ex_impls -> bytes Y -> length Y = 35%nat -> exists mm m mlen c ad npub k,
  ki_ok x /\ strict lax_cf = false /\ ki_ext x mm k npub ad (length ex_A24) c m (length Y - 16)%nat /\
  dec_valid lax_cf (csK (ki_v x)) mm m mlen c ad npub k ex_K ex_N ex_A24 Y.
Proof.
  intros Hx BY LY. assert (Ok : ki_ok x) by (destruct Hx as [<- | [<- | [<- | []]]]; cbn [ki_ok]; auto using ex_scr_ok, ex_junk_ok, ex_vscr_ok).
  eexists _, _, _, _, _, _, _. split; [exact Ok|]. split; [reflexivity|]. split.
  2:{ apply (ex_dec_valid lax_cf (csK (ki_v x)) ex_K ex_N ex_A24 Y); auto using ex_bytes_K, ex_bytes_N;
        rewrite ?LY; try (reflexivity || lia). unfold ex_A24. repeat constructor; cbn; lia. }
  destruct x; cbn [ki_ext]; [right; apply ex_room; cbn; lia|right; apply ex_room; cbn; lia|exact Logic.I].
Qed.
(* Two implementations of one instance. *)
Example C60_pair : ki_v (K64_128a ex_scr) = K128A /\ ki_v (Kavx_128a ex_junk ex_vscr) = K128A.
Proof. split; reflexivity. Qed.
