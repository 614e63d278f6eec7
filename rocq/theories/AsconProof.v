(* The Ascon reference kernel (RefPerm.v) computes the specified Ascon-p (SpecPerm.v). Proofs only. *)
From Verif Require Import Base Prog SpecPerm Words RefPerm.
Open Scope N_scope.

(* Five 64-bit words. *)
Definition w64 (v : N) : Prop := v < 2 ^ 64.
Definition words5 (s : list N) : Prop := length s = 5%nat /\ Forall w64 s.

Lemma words5_inv s : words5 s -> exists a b c d e, s = [a; b; c; d; e] /\ w64 a /\ w64 b /\ w64 c /\ w64 d /\ w64 e.
Proof.
  intros [Hl Hf]. do 5 (destruct s as [|? s]; [discriminate|]). destruct s; [|discriminate].
  repeat match goal with H : Forall _ (_ :: _) |- _ => inversion H; subst; clear H end.
  do 5 eexists. repeat split; auto.
Qed.

Lemma words5_mk a b c d e : w64 a -> w64 b -> w64 c -> w64 d -> w64 e -> words5 [a; b; c; d; e].
Proof. intros. split; auto. repeat (constructor; auto). Qed.

Lemma mkword64_w f : w64 (mkword 64 f).
Proof. apply mkword_lt. Qed.

Lemma ascon_sub_words s : words5 (ascon_sub s).
Proof. split; auto. unfold ascon_sub. repeat constructor; apply mkword64_w. Qed.
Lemma ascon_lin_words s : words5 (ascon_lin s).
Proof. split; auto. unfold ascon_lin, ascon_sigma. repeat constructor; apply mkword64_w. Qed.
Lemma ascon_round_words c s : words5 (ascon_round c s).
Proof. apply ascon_lin_words. Qed.

Lemma tb_w64_high v i : w64 v -> 64 <= i -> N.testbit v i = false.
Proof. apply tb_high. Qed.

Lemma run_sbox a b c d e ts : w64 a -> w64 b -> w64 c -> w64 d -> w64 e -> length ts = 5%nat ->
  exists ts', length ts' = 5%nat /\
  run ascon_ref_sbox ([a; b; c; d; e] ++ ts) = ascon_sub [a; b; c; d; e] ++ ts'.
Proof.
  intros Ha Hb Hc Hd He Ht.
  do 5 (destruct ts as [|? ts]; [discriminate|]). destruct ts; [|discriminate]. clear Ht.
  unfold ascon_ref_sbox, run, x0, x1, x2, x3, x4, t0, t1, t2, t3, t4.
  cbn [fold_left step upd_nth eval nth app].
  match goal with |- context [?l = _] =>
    match l with ?a0 :: ?a1 :: ?a2 :: ?a3 :: ?a4 :: ?r => exists r; split; [reflexivity|] end end.
  unfold ascon_sub. cbn [map seq app].
  assert (P : forall p q r : N, forall l l' : list N, p = q -> l = l' -> p :: l = q :: l') by (intros; congruence).
  repeat match goal with |- _ :: _ = _ :: _ => apply P; [exact 0| |] end; try reflexivity;
    apply bits_inj_iff'; intros i; rewrite tb_mkword;
    repeat (rewrite N.lxor_spec || rewrite N.land_spec || rewrite tb_wnot);
    change (N.of_nat 64) with 64;
    (destruct (N.ltb_spec i 64) as [Hi|Hi]; cbn [andb negb];
    [ unfold col, bit; cbn [nth]; rewrite !N2Nat.id;
      destruct (N.testbit a i), (N.testbit b i), (N.testbit c i), (N.testbit d i), (N.testbit e i);
      vm_compute; reflexivity
    | rewrite ?(tb_w64_high a), ?(tb_w64_high b), ?(tb_w64_high c), ?(tb_w64_high d), ?(tb_w64_high e) by auto;
      reflexivity ]).
Qed.

Lemma eval_ROTR r x n : n < 64 -> 0 < n -> w64 (nth x r 0) -> eval r (ROTR (V x) n) = wror 64 (nth x r 0) n.
Proof.
  intros Hn H0 Hw. unfold ROTR, wror. cbn [eval]. f_equal. now rewrite wtrunc_id.
Qed.

Lemma sigma_spec v a b : w64 v -> (0 < a < 64)%nat -> (0 < b < 64)%nat ->
  N.lxor v (N.lxor (wror 64 v (N.of_nat a)) (wror 64 v (N.of_nat b))) = ascon_sigma a b v.
Proof.
  intros Hv Ha Hb. apply bits_inj_iff'. intros i. unfold ascon_sigma.
  rewrite tb_mkword, !N.lxor_spec, !tb_wror by lia. change (N.of_nat 64) with 64.
  destruct (N.ltb_spec i 64) as [Hi|Hi]; cbn [andb].
  - unfold bit. f_equal; [f_equal; lia|]. f_equal; f_equal; lia.
  - now rewrite tb_w64_high.
Qed.

Lemma run_lin a b c d e ts : w64 a -> w64 b -> w64 c -> w64 d -> w64 e ->
  run ascon_ref_lin ([a; b; c; d; e] ++ ts) = ascon_lin [a; b; c; d; e] ++ ts.
Proof.
  intros Ha Hb Hc Hd He.
  unfold ascon_ref_lin, run, ROTR, x0, x1, x2, x3, x4.
  cbn [fold_left step upd_nth eval nth app].
  unfold ascon_lin. cbn [nth app].
  rewrite <- (sigma_spec a 19 28), <- (sigma_spec b 61 39), <- (sigma_spec c 1 6),
    <- (sigma_spec d 10 17), <- (sigma_spec e 7 41) by (auto; lia).
  unfold wror. rewrite !wtrunc_id by auto. reflexivity.
Qed.

Lemma run_ascon_round i s ts : words5 s -> ascon_ref_c i < 2 ^ 64 -> length ts = 5%nat ->
  exists ts', length ts' = 5%nat /\
  run (ascon_ref_round i) (s ++ ts) = ascon_round (ascon_ref_c i) s ++ ts'.
Proof.
  intros Hs Hi Ht. destruct (words5_inv s Hs) as (a & b & c & d & e & -> & Ha & Hb & Hc & Hd & He).
  unfold ascon_ref_round. rewrite !run_app.
  assert (E : run (ascon_ref_addc i) ([a; b; c; d; e] ++ ts)
              = [a; b; N.lxor c (ascon_ref_c i); d; e] ++ ts) by reflexivity.
  rewrite E. destruct (run_sbox a b (N.lxor c (ascon_ref_c i)) d e ts) as (ts' & Hts' & E'); auto.
  { now apply lxor_lt. }
  rewrite E'. exists ts'; split; auto. unfold ascon_round, ascon_addc. cbn [nth].
  destruct (words5_inv _ (ascon_sub_words [a; b; N.lxor c (ascon_ref_c i); d; e]))
    as (a' & b' & c' & d' & e' & -> & Ha' & Hb' & Hc' & Hd' & He').
  now apply run_lin.
Qed.

Definition erel (e s : list N) : Prop := words5 s /\ exists ts, length ts = 5%nat /\ e = s ++ ts.

Lemma run_ascon_rounds idx s ts : words5 s -> Forall (fun i => ascon_ref_c i < 2 ^ 64) idx -> length ts = 5%nat ->
  firstn 5 (fold_left (fun e i => run (ascon_ref_round i) e) idx (s ++ ts)) =
  fold_left (fun s c => ascon_round c s) (map ascon_ref_c idx) s.
Proof.
  intros Hs H Ht. rewrite Forall_forall in H.
  pose proof (fold_sim (fun e i => run (ascon_ref_round i) e) (fun s c => ascon_round c s) ascon_ref_c erel idx) as S.
  destruct (S) with (e := s ++ ts) (s := s) as (Hw & ts' & Ht' & ->).
  - intros e s1 i Hi (Hw & ts1 & Ht1 & ->). split; [apply ascon_round_words|].
    apply run_ascon_round; auto.
  - split; auto. now exists ts.
  - destruct Hw as [Hl _]. rewrite firstn_app, Hl, Nat.sub_diag, <- Hl, firstn_all. apply app_nil_r.
Qed.

(* Loop indices: the reference uses exactly the last r specified constants. *)
Lemma ascon_indices_ok r : (r <= 12)%nat ->
  map ascon_ref_c (ascon_ref_indices (N.of_nat r)) = skipn (12 - r) ascon_rc /\
  Forall (fun i => ascon_ref_c i < 2 ^ 64) (ascon_ref_indices (N.of_nat r)).
Proof.
  intros Hr.
  do 13 (destruct r as [|r];
    [ split; [vm_compute; reflexivity|];
      apply Forall_forall; intros i Hi; apply N.ltb_lt; revert i Hi; apply forallb_forall; vm_compute; reflexivity |]).
  lia.
Qed.

Theorem ascon_ref_words_spec r s : (r <= 12)%nat -> words5 s ->
  ascon_ref_words (N.of_nat r) s = ascon_p_words r s.
Proof.
  intros Hr Hs. destruct (ascon_indices_ok r Hr) as [E F].
  unfold ascon_ref_words. rewrite run_ascon_rounds by auto. now rewrite E.
Qed.

(* More than 12 rounds with assertions disabled: the unsigned loop bounds make it no rounds at all. *)
Lemma ascon_p_words_words r s : words5 s -> words5 (ascon_p_words r s).
Proof.
  unfold ascon_p_words. generalize (skipn (12 - r) ascon_rc) as l.
  intros l; revert s; induction l as [|c l IH]; intros s Hs; simpl; auto.
  apply IH. apply ascon_round_words.
Qed.

Lemma words5_chunks bs : bytes bs -> length bs = 40%nat -> words5 (map be_word (chunks 8 bs)).
Proof.
  intros Hb Hl. destruct (chunks_length_mult 8 5 bs) as [H1 H2]; [lia|auto|].
  split; [now rewrite map_length|]. apply Forall_map.
  pose proof (chunks_Forall _ 8 _ Hb) as H3.
  rewrite Forall_forall in *. intros x Hx. unfold w64.
  replace 64 with (8 * N.of_nat (length x)) by (rewrite (H2 x Hx); reflexivity).
  apply be_word_lt. apply (H3 x Hx).
Qed.

Lemma concat_length_const {A} k (ls : list (list A)) : Forall (fun l => length l = k) ls ->
  length (concat ls) = (length ls * k)%nat.
Proof. induction 1 as [|l ls Hl H IH]; simpl; auto. rewrite app_length. lia. Qed.

Lemma ascon_p_bytes r bs : bytes bs -> length bs = 40%nat -> bytes (ascon_p r bs) /\ length (ascon_p r bs) = 40%nat.
Proof.
  intros Hb Hl. pose proof (ascon_p_words_words r _ (words5_chunks bs Hb Hl)) as [H1 H2].
  unfold ascon_p. split.
  - apply Forall_concat. apply Forall_map, Forall_forall. intros. apply bytes_word_be.
  - rewrite (concat_length_const 8).
    + now rewrite map_length, H1.
    + apply Forall_map, Forall_forall. intros. apply word_be_length.
Qed.
