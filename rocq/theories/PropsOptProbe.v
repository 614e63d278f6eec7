(* Property C58: the states on which the optimised ISAP-A-128A implementations call their permutation. Only statements: proofs are in
   OptProbeProof.v and OptProbeTop.v. *)
From Verif Require Import Base SpecPerm Words Mem Vocab Vocab2 RefAead SpecFacts Api ApiProps ExLib VocabProbe VocabOptProbe.
From Verif Require Import OptPerm OptIsap OptProof OptImpl OptEx PropsOpt OptProbeTop.
From Verif Require OptProbe.
From Verif Require Import Spec.
Open Scope N_scope.

Notation probed_encrypt a leak cf junk c clen m T ad A npub k :=
  (a_enc (OptProbe.probed_opt a leak cf junk) c clen m (N.of_nat (length T)) ad (N.of_nat (length A)) npub k) (only parsing).
Notation probed_decrypt a leak cf junk m mlen c Y ad A npub k :=
  (a_dec (OptProbe.probed_opt a leak cf junk) m mlen c (N.of_nat (length Y)) ad (N.of_nat (length A)) npub k) (only parsing).

(* Without the device the model is that of C22 to C25. *)
Theorem C58_device_off a cf junk :
  OptProbe.isap_enc a cf junk (fun _ => ret tt) = OptIsap.isap_enc a cf junk /\
  OptProbe.isap_mac a cf (fun _ => ret tt) = OptIsap.isap_mac a cf.
Proof. exact (op_device_off a cf junk). Qed.
Print Assumptions C58_device_off.

(* Encryption permutes exactly the listed states, in this order and in the form in which the implementation holds them, whatever the device
   computes from them; the device changes neither the result nor the memory. *)
Theorem C58_encryption_states a leak cf junk mm c clen m ad npub k K Nn A T : In a fam_opt -> length junk = 5%nat ->
  all_al8 cf [k; npub; ad; m; c] -> enc_valid cf opt_consts mm c clen m ad npub k K Nn A T ->
  exists m1,
    runs (a_enc (opt_impl a cf junk) c clen m (N.of_nat (length T)) ad (N.of_nat (length A)) npub k) mm 0%Z m1 /\
    logs (probed_encrypt a leak cf junk c clen m T ad A npub k) mm 0%Z m1
      (seen (fun s => leak (held a s))
         (enc_in ISAP_A_128A K Nn (length T) ++ mac_in ISAP_A_128A K Nn A (isap_enc ISAP_A_128A K Nn T))).
Proof. exact (op_enc_same a leak cf junk mm c clen m ad npub k K Nn A T). Qed.
Print Assumptions C58_encryption_states.

Theorem C58_decryption_states a leak cf junk mm m mlen c ad npub k K Nn A Y : In a fam_opt -> length junk = 5%nat ->
  all_al8 cf [k; npub; ad; m; c] -> dec_valid cf opt_consts mm m mlen c ad npub k K Nn A Y ->
  exists r m1,
    runs (a_dec (opt_impl a cf junk) m mlen c (N.of_nat (length Y)) ad (N.of_nat (length A)) npub k) mm r m1 /\
    logs (probed_decrypt a leak cf junk m mlen c Y ad A npub k) mm r m1
      (seen (fun s => leak (held a s)) (mac_in ISAP_A_128A K Nn A (firstn (length Y - 16) Y) ++
         if (r =? 0)%Z then enc_in ISAP_A_128A K Nn (length Y - 16) else [])) /\
    (r = 0%Z <-> skipn (length Y - 16) Y = isap_mac ISAP_A_128A K Nn A (firstn (length Y - 16) Y)).
Proof. exact (op_dec_same a leak cf junk mm m mlen c ad npub k K Nn A Y). Qed.
Print Assumptions C58_decryption_states.

(* Decryption: the calls before the last re-keying depend neither on the key nor on the implementation. *)
Theorem C58_hash_without_key Nn A Y : exists h, forall a cf junk mm m mlen c ad npub k K, In a fam_opt -> length junk = 5%nat ->
  all_al8 cf [k; npub; ad; m; c] -> dec_valid cf opt_consts mm m mlen c ad npub k K Nn A Y ->
  exists R z r m1, length R = 129%nat /\
    forall leak, logs (probed_decrypt a leak cf junk m mlen c Y ad A npub k) mm r m1
      (seen (fun s => leak (held a s)) (h ++ R ++ [z] ++ if (r =? 0)%Z then enc_in ISAP_A_128A K Nn (length Y - 16) else [])).
Proof. exact (op_dec_public Nn A Y). Qed.
Print Assumptions C58_hash_without_key.

(* Any two decryptions under one key, by the same implementation or by two different ones. *)
Theorem C58_decryptions_two_limited a cf junk mm m mlen c ad npub k K Nn A Y a' cf' junk' mm' m' mlen' c' ad' npub' k' Nn' A' Y' :
  In a fam_opt -> length junk = 5%nat -> all_al8 cf [k; npub; ad; m; c] ->
  dec_valid cf opt_consts mm m mlen c ad npub k K Nn A Y ->
  In a' fam_opt -> length junk' = 5%nat -> all_al8 cf' [k'; npub'; ad'; m'; c'] ->
  dec_valid cf' opt_consts mm' m' mlen' c' ad' npub' k' K Nn' A' Y' ->
  exists h R z e r m1 h' R' z' e' r' m1',
    two_limited R R' /\
    (forall leak, logs (probed_decrypt a leak cf junk m mlen c Y ad A npub k) mm r m1
       (seen (fun s => leak (held a s)) (h ++ R ++ [z] ++ e))) /\
    (forall leak, logs (probed_decrypt a' leak cf' junk' m' mlen' c' Y' ad' A' npub' k') mm' r' m1'
       (seen (fun s => leak (held a' s)) (h' ++ R' ++ [z'] ++ e'))) /\
    h = hash_in ISAP_A_128A Nn A (firstn (length Y - 16) Y) /\ h' = hash_in ISAP_A_128A Nn' A' (firstn (length Y' - 16) Y') /\
    (r <> 0%Z -> e = []) /\ (r' <> 0%Z -> e' = []).
Proof.
  exact (fun H1 H2 H3 V H1' H2' H3' V' => shape_dec_two A128A K _ _ mm Nn A Y _ _ mm' Nn' A' Y'
    (op_dec_shape a cf junk mm m mlen c ad npub k K Nn A Y H1 H2 H3 V)
    (op_dec_shape a' cf' junk' mm' m' mlen' c' ad' npub' k' K Nn' A' Y' H1' H2' H3' V')).
Qed.
Print Assumptions C58_decryptions_two_limited.

(* Any two encryptions of non-empty messages under one key. *)
Theorem C58_encryptions_two_limited a cf junk mm c clen m ad npub k K Nn A T a' cf' junk' mm' c' clen' m' ad' npub' k' Nn' A' T' :
  In a fam_opt -> length junk = 5%nat -> all_al8 cf [k; npub; ad; m; c] ->
  enc_valid cf opt_consts mm c clen m ad npub k K Nn A T -> T <> [] ->
  In a' fam_opt -> length junk' = 5%nat -> all_al8 cf' [k'; npub'; ad'; m'; c'] ->
  enc_valid cf' opt_consts mm' c' clen' m' ad' npub' k' K Nn' A' T' -> T' <> [] ->
  exists Q e h R z m1 Q' e' h' R' z' m1',
    two_limited Q Q' /\ two_limited R R' /\
    (forall leak, logs (probed_encrypt a leak cf junk c clen m T ad A npub k) mm 0%Z m1
       (seen (fun s => leak (held a s)) (Q ++ e ++ h ++ R ++ [z]))) /\
    (forall leak, logs (probed_encrypt a' leak cf' junk' c' clen' m' T' ad' A' npub' k') mm' 0%Z m1'
       (seen (fun s => leak (held a' s)) (Q' ++ e' ++ h' ++ R' ++ [z']))) /\
    length e = ((length T + 8 - 1) / 8)%nat /\ length e' = ((length T' + 8 - 1) / 8)%nat /\
    (Nn = Nn' -> length T = length T' -> Q = Q' /\ e = e').
Proof.
  exact (fun H1 H2 H3 V HT H1' H2' H3' V' HT' => shape_enc_two A128A K _ _ mm Nn A T _ _ mm' Nn' A' T'
    (op_enc_shape a cf junk mm c clen m ad npub k K Nn A T H1 H2 H3 V) HT
    (op_enc_shape a' cf' junk' mm' c' clen' m' ad' npub' k' K Nn' A' T' H1' H2' H3' V') HT').
Qed.
Print Assumptions C58_encryptions_two_limited.

(* ---- The hypotheses can be met ---- *)

(* A machine that permits misaligned accesses, and one that does not with buffers on 64-byte boundaries. *)
Example C58_enc_case cf : cf = lax_cf \/ cf = strict_cf -> exists mm c clen m ad npub k,
  all_al8 cf [k; npub; ad; m; c] /\ enc_valid cf opt_consts mm c clen m ad npub k ex_K ex_N ex_A ex_T /\ ex_T <> [].
Proof.
  intros H. eexists _, _, _, _, _, _, _. split; [|split].
  2:{ apply (ex_opt_enc cf ex_K ex_N ex_A ex_T); auto using ex_bytes_K, ex_bytes_N, ex_bytes_A, ex_bytes_T; destruct H as [-> | ->]; reflexivity. }
  - assert (G : forall i, al8 cf (P i 0)) by (destruct H as [-> | ->]; [intros; now apply al8_lax|apply strict_al8]).
    split; [intros; apply G|]. repeat constructor; apply G.
  - discriminate.
Qed.
Example C58_dec_case Y : bytes Y -> length Y = 35%nat -> exists mm m mlen c ad npub k,
  all_al8 lax_cf [k; npub; ad; m; c] /\ dec_valid lax_cf opt_consts mm m mlen c ad npub k ex_K ex_N ex_A Y.
Proof.
  intros B L. eexists _, _, _, _, _, _, _. split; [|now apply ex_opt_dec].
  split; [intros; now apply al8_lax|]. repeat constructor; now apply al8_lax.
Qed.
Example C58_family : length fam_opt = 12%nat.
Proof. reflexivity. Qed.
(* The words held for one state by two of the implementations. *)
Example C58_held : held opt_64 (map N.of_nat (seq 1 40)) =
    [0x0102030405060708; 0x090a0b0c0d0e0f10; 0x1112131415161718; 0x191a1b1c1d1e1f20; 0x2122232425262728] /\
  nth 0 (held bi_32 (map N.of_nat (seq 1 40))) 0 <> nth 0 (held opt_64 (map N.of_nat (seq 1 40))) 0.
Proof. vm_compute. split; [reflexivity|discriminate]. Qed.
