(* isapk128av20/avx512 as an API implementation. Apart from the definition of the implementation, proofs only. *)
From Verif Require Import Base Prog Poly SpecPerm Words KeccakProof RefPerm Mem Vocab Vocab2 VocabK MemProof RefLib Sponge RefProof RefAead SpecFacts.
From Verif Require Import Api ApiProof ExLib ShortCt OptEx OptProof A128Proof ExtProof KRound K64Perm K64PermProof KIsap KIsapProof KAvxPerm KAvxProof K64Impl.
From Verif Require Spec RefIsap ApiCode.
Import Spec(xorp, i_sz, i_rate, i_sH, i_sB, i_sE, i_sK, i_perm).
Open Scope N_scope.
Open Scope cm_scope.

(* crypto_aead.c over isap.c. junk: the contents of the 14 bytes of the vector S that belong to no lane when S.X.Aba .. S.X.Asu have been
   assigned; scr: the contents of all other vectors when the permutation starts. *)
Definition kavx (junk : mem -> list N) (scr : st -> list N) : kops :=
  kavx_ops junk (fun r s z => Ok (kavx_perm (scr z) r s) z).
Definition impl_kavx (junk : mem -> list N) (scr : st -> list N) (cf : cfg) : aead :=
  api_aead cf (isap_enc (kavx junk scr) rounds_128a cf) (isap_mac (kavx junk scr) rounds_128a cf).
Definition junk_ok (junk : mem -> list N) : Prop := forall m, length (junk m) = 14%nat /\ bytes (junk m).
Definition vscr_ok (scr : st -> list N) : Prop := forall z, length (scr z) = 353%nat /\ Forall (fun w => w < 2 ^ 16) (scr z).

Lemma r_mask_load m p bs n : has m p bs -> length bs = n -> runs (mask_load n p) m bs m.
Proof. intros H <-. eapply runs_bind; [apply runs_emit|]. now apply runs_loads_. Qed.
Lemma r_mask_store m p bs : room m p (length bs) -> runs (mask_store bs p) m tt (putp m p bs).
Proof. intros H. eapply runs_bind; [apply runs_emit|]. now apply runs_stores_. Qed.

Lemma kavx_ops_ok junk scr cf : junk_ok junk -> vscr_ok scr -> kops_ok 64 18 k64_r cf (kavx junk scr) kavx_p.
Proof.
  intros Hj Hscr. constructor.
  - lia.
  - lia.
  - intros m bs B L. destruct (Hj m) as [J1 J2]. exists (bs ++ junk m). split; [|split].
    + intros t. exists t. cbn [kavx kavx_ops k_init]. rewrite lanes_wfS by auto. reflexivity.
    + split; [rewrite app_length; lia|now apply bytes_app].
    + rewrite firstn_app, L, Nat.sub_diag, firstn_O, app_nil_r. apply firstn_all2. lia.
  - intros r s m Hr [L B] t. cbn [kavx kavx_ops k_perm]. destruct (Hscr (St m t)) as [H1 H2].
    destruct (kavx_ok (scr (St m t)) r s Hr H1 H2 B L) as [-> _]. now exists t.
  - intros r s Hr [L B]. destruct (Hscr (St [] [])) as [H1 H2].
    destruct (kavx_ok _ r s Hr H1 H2 B L) as (_ & B1 & L1 & E). split; [split; auto|exact E].
  - intros m p bs B H L _. now apply r_mask_load.
  - intros m p bs B H L. now apply r_mask_load.
  - intros s x Hx. cbn [kavx kavx_ops k_bit]. rewrite xor_at_0. f_equal.
    rewrite <- (word_le_le_word [x] 1) by (auto; repeat constructor; auto). f_equal.
  - intros s. cbn [kavx kavx_ops k_dom]. rewrite xor_at_off.
    change (repeat 0 48 ++ word_le 4 256) with ((repeat 0 49 ++ [1]) ++ repeat 0 2). apply xorp_zeros.
  - intros m s out outlen n [L B] En R. cbn [kavx kavx_ops k_out]. change (50 - RefIsap.CRYPTO_NPUBBYTES) with 34.
    apply runs_if. destruct (outlen =? 34); subst n; apply r_mask_store; rewrite firstn_length, L; exact R.
  - intros m s p [L B] R. cbn [kavx kavx_ops k_store16]. apply r_mask_store. now rewrite firstn_length, L.
  - intros m p bs B H L. now apply r_mask_load.
Qed.

Lemma slk18 n : slk 18 n = n.
Proof. unfold slk. destruct (n <? 18)%nat eqn:E; auto. pose proof (Nat.mul_div_le n 18). lia. Qed.

Lemma kavx_correct junk scr cf : junk_ok junk -> vscr_ok scr -> strict cf = false ->
  impl_ok Spec.ISAP_K_128A cf (csK K128A) no_cond (impl_kavx junk scr cf).
Proof.
  intros Hj Hscr Hs. assert (Hv : kv K128A) by now right. destruct (k_inst K128A Hv) as (Hsz & Hra & Hp).
  destruct (k_rnd K128A k64_r Hv) as (HH & HB & HE & HK); try (unfold k64_r; tauto).
  pose proof (kavx_ops_ok junk scr cf Hj Hscr) as Ho.
  apply (api_impl_ok K128A cf (csK K128A) (fun _ => True) no_cond); auto using k_ne; rewrite (k_consts K128A Hv).
  - exact (enc_k_ok K128A (k_rounds K128A) 64 18 k64_r cf _ kavx_p Ho Hs Hsz Hra Hp HH HB HE HK (k_iv K128A Hv)).
  - intros mm k npub ad c tag K Nn A C H1 H2 H3 H4 H5 H6 H7 H8 H9 Ha Hb Hc Hd He Hf Hg Hh Hi Hj' Hk.
    apply (mac_k_ok K128A (k_rounds K128A) 64 18 k64_r cf _ kavx_p Ho Hs Hsz Hra Hp HH HB HE HK (k_iv K128A Hv)); auto.
    + rewrite slk18. apply room_has, H7.
    + rewrite slk18. apply room_has, H8.
Qed.

(* Examples of the unknown contents. *)
Definition ex_junk : mem -> list N := fun m => repeat (N.of_nat (length m) mod 256) 14.
Definition ex_vscr : st -> list N := fun z => repeat (N.of_nat (length (strc z)) mod 2 ^ 16) 353.
Lemma ex_junk_ok : junk_ok ex_junk.
Proof.
  intros m. split; [apply repeat_length|]. apply Forall_forall. intros x H. apply repeat_spec in H. subst x. apply N.mod_upper_bound. discriminate.
Qed.
Lemma ex_vscr_ok : vscr_ok ex_vscr.
Proof.
  intros m. split; [apply repeat_length|]. apply Forall_forall. intros x H. apply repeat_spec in H. subst x. apply N.mod_upper_bound. discriminate.
Qed.
Definition ex_wide : list N := map (fun i => N.of_nat i * 37 mod 256) (seq 1 64).
Definition ex_wide' : list N := firstn 50 ex_wide ++ repeat 255 14.

Lemma kavx_unused scr scr' r s s' : k64_r r ->
  length scr = 353%nat -> Forall (fun w => w < 2 ^ 16) scr -> length scr' = 353%nat -> Forall (fun w => w < 2 ^ 16) scr' ->
  bytes s -> length s = 64%nat -> bytes s' -> length s' = 64%nat -> firstn 50 s = firstn 50 s' ->
  firstn 50 (kavx_perm scr r s) = firstn 50 (kavx_perm scr' r s') /\
  firstn 50 (kavx_perm scr r s) = keccak_p (N.to_nat r) (firstn 50 s).
Proof.
  intros Hr L1 F1 L2 F2 B L B' L' E.
  destruct (kavx_ok scr r s Hr L1 F1 B L) as (E1 & _ & _ & E2). destruct (kavx_ok scr' r s' Hr L2 F2 B' L') as (E3 & _ & _ & E4).
  rewrite E1, E3, E2, E4, E. auto.
Qed.
