(* Properties C16-C18 for every implementation in the table of Table.v, that is for the reference and for all optimised implementations except
   isapa128av20/bi_32_armv7m (refuted in C24) and the three STP directories (PropsStpCt.v).
   A trace is the list of the addresses and widths of all loads and stores, of all branch decisions and of all calls of the permutation with
   their round numbers, most recent first (Mem.v). Only statements: proofs are in TableCt.v. *)
From Verif Require Import Base SpecPerm Words Mem Vocab Vocab2 VocabK RefAead SpecFacts Api ExLib OptPerm OptProof OptImpl OptEx
  A128Impl KIsapProof K64Impl KAvxImpl KArmPerm KArmImpl AvxAProof AvxAImpl Table PropsRef PropsK64 PropsKAvx PropsKArm TableCt.
Open Scope N_scope.

(* ---- C16 ---- *)

Theorem C16_every_implementation v cf cs ex X mm mm' c clen m ad npub k K Nn A T K' Nn' A' T' :
  impl_of v cf cs ex X ->
  ex mm k npub ad (length A) m c (length T) -> ex mm' k npub ad (length A') m c (length T') ->
  enc_valid cf cs mm c clen m ad npub k K Nn A T -> enc_valid cf cs mm' c clen m ad npub k K' Nn' A' T' ->
  length A = length A' -> length T = length T' -> layout mm mm' ->
  forall t, exists s s',
    a_enc X c clen m (N.of_nat (length T)) ad (N.of_nat (length A)) npub k (St mm t) = Ok 0%Z s /\
    a_enc X c clen m (N.of_nat (length T)) ad (N.of_nat (length A)) npub k (St mm' t) = Ok 0%Z s' /\
    strc s = strc s'.
Proof. exact (table_enc_trace v cf cs ex X mm mm' c clen m ad npub k K Nn A T K' Nn' A' T'). Qed.
Print Assumptions C16_every_implementation.

(* ---- C17 ---- *)

Theorem C17_every_implementation v cf cs ex X mm mm' m mlen c ad npub k K Nn A Y K' Nn' A' Y' :
  impl_of v cf cs ex X ->
  ex mm k npub ad (length A) c m (length Y - 16)%nat -> ex mm' k npub ad (length A') c m (length Y' - 16)%nat ->
  dec_valid cf cs mm m mlen c ad npub k K Nn A Y -> dec_valid cf cs mm' m mlen c ad npub k K' Nn' A' Y' ->
  length A = length A' -> length Y = length Y' -> layout mm mm' ->
  forall t, exists r s r' s' t0 u u',
    a_dec X m mlen c (N.of_nat (length Y)) ad (N.of_nat (length A)) npub k (St mm t) = Ok r s /\
    a_dec X m mlen c (N.of_nat (length Y)) ad (N.of_nat (length A)) npub k (St mm' t) = Ok r' s' /\
    (* t0 is common, then the verdict branch, then u / u' *)
    strc s = u ++ EBr (r =? 0)%Z :: t0 /\ strc s' = u' ++ EBr (r' =? 0)%Z :: t0 /\
    (r <> 0%Z -> u = []) /\ (r' <> 0%Z -> u' = []) /\ (r = r' -> u = u').
Proof. exact (table_dec_trace v cf cs ex X mm mm' m mlen c ad npub k K Nn A Y K' Nn' A' Y'). Qed.
Print Assumptions C17_every_implementation.

(* ---- C18 ---- *)

(* All but one encrypt as the reference does; the exception is isapa128av20/avx_512. *)
Theorem C18_every_implementation_encryption_work v cf cs ex X :
  impl_of v cf cs ex X ->
  (exists UL, v = A128A /\ X = impl_avxa UL cf) \/
  forall mm c clen m ad npub k K Nn A T,
    ex mm k npub ad (length A) m c (length T) -> enc_valid cf cs mm c clen m ad npub k K Nn A T ->
    forall t, exists s,
      a_enc X c clen m (N.of_nat (length T)) ad (N.of_nat (length A)) npub k (St mm t) = Ok 0%Z s /\
      perms (strc s) = perms t ++ calls_enc (v_inst v) (length T) ++ calls_mac (v_inst v) (length A) (length T).
Proof. exact (table_enc_calls v cf cs ex X). Qed.
Print Assumptions C18_every_implementation_encryption_work.

Theorem C18_every_implementation_decryption_work v cf cs ex X mm m mlen c ad npub k K Nn A Y :
  impl_of v cf cs ex X ->
  ex mm k npub ad (length A) c m (length Y - 16)%nat -> dec_valid cf cs mm m mlen c ad npub k K Nn A Y ->
  forall t, exists r s,
    a_dec X m mlen c (N.of_nat (length Y)) ad (N.of_nat (length A)) npub k (St mm t) = Ok r s /\
    perms (strc s) = perms t ++ calls_mac (v_inst v) (length A) (length Y - 16) ++
      (if (r =? 0)%Z then calls_enc (v_inst v) (length Y - 16) else []).
Proof. exact (table_dec_calls v cf cs ex X mm m mlen c ad npub k K Nn A Y). Qed.
Print Assumptions C18_every_implementation_decryption_work.

(* isapa128av20/avx_512 encrypts 16 bytes of text and authenticates 8 bytes in one pass: both key-stream calls of an iteration are made even if
   there is text for one of them only, or for none. *)
Theorem C18_avx_512_encryption_work UL cf mm c clen m ad npub k K Nn A T :
  UL <= 64 -> strict cf = false ->
  N.of_nat (length A) < 2 ^ UL -> N.of_nat (length T) < 2 ^ UL -> N.of_nat (length T) < 2 ^ 63 -> enc_valid cf csA mm c clen m ad npub k K Nn A T ->
  forall t, exists s,
    a_enc (impl_avxa UL cf) c clen m (N.of_nat (length T)) ad (N.of_nat (length A)) npub k (St mm t) = Ok 0%Z s /\
    let rk := 12 :: repeat 1 127 ++ [12] in
    let it := Nat.max 1 ((length T + 15) / 16) in
    perms (strc s) = perms t ++ rk ++ repeat 12 (1 + length A / 8) ++ repeat 6 (2 * it) ++ repeat 12 (length T / 8 + 2 - it) ++ rk ++ [12].
Proof. exact (avx_enc_calls UL cf mm c clen m ad npub k K Nn A T). Qed.
Print Assumptions C18_avx_512_encryption_work.

(* ---- The hypotheses can be met, for implementations of every row of the table: two encryptions with completely different data and the same
   layout; two decryptions with the same layout of which one accepts and the other rejects. ---- *)

Definition two_calls (v : variant) (cf : cfg) (cs : list (list N)) (ex : ext) (X : aead) : Prop :=
  impl_of v cf cs ex X /\
  exists mm mm' dm dm' c clen m ad npub k Y Y' m1 m1',
  (ex mm k npub ad (length ex_A24) m c (length ex_T) /\ ex mm' k npub ad (length (rev ex_A24)) m c (length (rev ex_T)) /\
   enc_valid cf cs mm c clen m ad npub k ex_K ex_N ex_A24 ex_T /\
   enc_valid cf cs mm' c clen m ad npub k ex_N ex_K (rev ex_A24) (rev ex_T) /\ layout mm mm' /\
   ex_K <> ex_N /\ ex_A24 <> rev ex_A24 /\ ex_T <> rev ex_T) /\
  (ex dm k npub ad (length ex_A24) m c (length Y - 16)%nat /\ ex dm' k npub ad (length (rev ex_A24)) m c (length Y' - 16)%nat /\
   dec_valid cf cs dm c clen m ad npub k ex_K ex_N ex_A24 Y /\
   dec_valid cf cs dm' c clen m ad npub k ex_K ex_N (rev ex_A24) Y' /\ layout dm dm' /\ length Y = length Y' /\
   runs (a_dec X c clen m (N.of_nat (length Y)) ad (N.of_nat (length ex_A24)) npub k) dm 0%Z m1 /\
   runs (a_dec X c clen m (N.of_nat (length Y')) ad (N.of_nat (length (rev ex_A24))) npub k) dm' (-1)%Z m1').

Example two_calls_of v cf cs ex X : impl_of v cf cs ex X -> aligned cf (ex_ptr cs 5) 8 = true ->
  (forall K Nn A T n, length A = 24%nat ->
     ex (ex_mem cs K Nn A T n) (ex_ptr cs 0) (ex_ptr cs 1) (ex_ptr cs 2) 24%nat (ex_ptr cs 3) (ex_ptr cs 4) 19%nat) ->
  two_calls v cf cs ex X.
Proof. intros HX Al He. split; [exact HX|]. exact (two_calls_case v cf cs ex X HX Al He). Qed.

Example two_ref v : two_calls v strict_cf (ref_consts (v_macros v)) (loc_ext (v_loc v strict_cf)) (ref_impl v strict_cf).
Proof. apply two_calls_of; [apply io_ref|now destruct v|]. intros. exact (ex_locals v _). Qed.
Example two_fam a : In a fam_opt -> two_calls A128A lax_cf opt_consts any_call (opt_impl a lax_cf [1; 2; 3; 4; 5]).
Proof. intros H. apply two_calls_of; [now apply io_opt|reflexivity|]. intros; exact Logic.I. Qed.
Example two_fam_strict : two_calls A128A strict_cf opt_consts
  (fun _ k npub ad _ p q _ => al8 strict_cf k /\ al8 strict_cf npub /\ al8 strict_cf ad /\ al8 strict_cf p /\ al8 strict_cf q)
  (opt_impl opt_64 strict_cf [1; 2; 3; 4; 5]).
Proof.
  apply two_calls_of; [apply io_opt_aligned; [now left|reflexivity|intros; apply strict_al8]|reflexivity|].
  intros; repeat split; apply strict_al8.
Qed.
Example two_avx_512 : two_calls A128A lax_cf csA (avx_lens 64) (impl_avxa 64 lax_cf).
Proof. apply two_calls_of; [apply io_avxa; [discriminate|reflexivity]|reflexivity|]. intros; repeat split; reflexivity. Qed.
Example two_a128v20 : two_calls A128 lax_cf cs128 any_call (impl_a128_64 64 lax_cf) /\ two_calls A128 lax_cf cs128 any_call (impl_a128_32 lax_cf) /\
  two_calls A128 lax_cf cs128 any_call (impl_a128_67 lax_cf).
Proof.
  split; [|split]; (apply two_calls_of; [|reflexivity|intros; exact Logic.I]).
  - exact (io_a64 lax_cf eq_refl).
  - exact (io_a32 lax_cf eq_refl).
  - exact (io_a67 lax_cf eq_refl).
Qed.
Example two_kopt_64 v : kv v -> two_calls v lax_cf (csK v) six_more (impl_k64 v ex_scr lax_cf).
Proof.
  intros H. apply two_calls_of; [apply io_k64; [exact H|exact ex_scr_ok|reflexivity]|now destruct H as [-> | ->]|].
  intros K Nn A T n HA. right. apply ex_room. cbn [nth]. rewrite map_length, HA. cbn. lia.
Qed.
Example two_kavx512 : two_calls K128A lax_cf (csK K128A) any_call (impl_kavx ex_junk ex_vscr lax_cf).
Proof. apply two_calls_of; [apply io_kavx; [exact ex_junk_ok|exact ex_vscr_ok|reflexivity]|reflexivity|]. intros; exact Logic.I. Qed.
Example two_karm v f : kv v -> two_calls v strict_cf (csK v) (arm_call strict_cf) (impl_karm v f ex_regs strict_cf).
Proof.
  intros H. apply two_calls_of; [apply io_karm; [exact H|exact ex_regs_ok]|now destruct H as [-> | ->]|].
  intros. split; [split; [split; reflexivity|]|].
  - intros b _ _. cbn [strict_cf base]. lia.
  - repeat split; intros _ _; destruct H as [-> | ->]; reflexivity.
Qed.
