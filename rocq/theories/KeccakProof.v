(* The Keccak-p[400] reference kernel (RefPerm.v) computes the specified permutation (SpecPerm.v). Proofs only. *)
From Verif Require Import Base Prog Poly SpecPerm Words RefPerm.
Open Scope N_scope.

Section Hom.
  Variables (B B' : Type) (h : B -> B').
  Variables (b0 b1 : B) (bx ba : B -> B -> B) (c0 c1 : B') (cx ca : B' -> B' -> B').
  Hypothesis (H0 : h b0 = c0) (H1 : h b1 = c1).
  Hypothesis (Hx : forall a b, h (bx a b) = cx (h a) (h b)).
  Hypothesis (Ha : forall a b, h (ba a b) = ca (h a) (h b)).

  Lemma kmk_hom f g : (forall x y z, h (f x y z) = g x y z) -> map h (kmk B f) = kmk B' g.
  Proof. intros H. unfold kmk. rewrite map_map. apply map_ext. intros. apply H. Qed.

  Lemma kget_hom A x y z : h (kget B b0 A x y z) = kget B' c0 (map h A) x y z.
  Proof. unfold kget. rewrite <- H0. now rewrite map_nth. Qed.

  Lemma theta_hom A : map h (k_theta B b0 bx A) = k_theta B' c0 cx (map h A).
  Proof.
    unfold k_theta. apply kmk_hom. intros x y z. rewrite !Hx, kget_hom. f_equal.
    rewrite <- H0, <- !(map_nth h). rewrite !map_map. rewrite H0.
    f_equal; f_equal; apply map_ext; intros i; rewrite !Hx, !kget_hom; reflexivity.
  Qed.
  Lemma rho_hom A : map h (k_rho B b0 A) = k_rho B' c0 (map h A).
  Proof. apply kmk_hom. intros. apply kget_hom. Qed.
  Lemma pi_hom A : map h (k_pi B b0 A) = k_pi B' c0 (map h A).
  Proof. apply kmk_hom. intros. apply kget_hom. Qed.
  Lemma chi_hom A : map h (k_chi B b0 b1 bx ba A) = k_chi B' c0 c1 cx ca (map h A).
  Proof. apply kmk_hom. intros. now rewrite !Hx, !Ha, !Hx, !kget_hom, H1. Qed.
  Lemma iota_hom i A : map h (k_iota B b0 b1 bx i A) = k_iota B' c0 c1 cx i (map h A).
  Proof.
    unfold k_iota. apply kmk_hom. intros. rewrite <- kget_hom. destruct (_ && _); auto.
    now rewrite Hx, H1.
  Qed.
End Hom.

(* The 16-bit lanes as a flat list of bits. *)
Definition wbits (ws : list N) : list bool := concat (map (fun w => map (bit w) (seq 0 16)) ws).
Definition words25 (ws : list N) : Prop := length ws = 25%nat /\ Forall (fun w => w < 2 ^ 16) ws.

Definition sbits (ws : list sword) : list poly := concat (map (spad 16) ws).

Lemma sbits_wbits r sw ws : Forall2 (srel r) sw ws -> map (peval r) (sbits sw) = wbits ws.
Proof.
  intros H. induction H as [|s w sw ws Hr H IH]; auto.
  unfold sbits, wbits in *. cbn [map concat]. rewrite map_app, IH. f_equal.
  apply (nth_ext_le _ _ false).
  - now rewrite !map_length, spad_length, seq_length.
  - intros i Hi. rewrite map_length, spad_length in Hi.
    rewrite (nth_map_lt (bit w) _ _ O) by now rewrite seq_length.
    rewrite (nth_map_lt (peval r) _ _ []) by now rewrite spad_length.
    fold (sbit (spad 16 s) i). rewrite sbit_spad. destruct (Nat.ltb_spec i 16); [|lia].
    rewrite seq_nth by auto. unfold bit. rewrite Hr. f_equal. f_equal. lia.
Qed.

Fixpoint lpeqb (a b : list poly) : bool :=
  match a, b with
  | [], [] => true
  | x :: a', y :: b' => peqb x y && lpeqb a' b'
  | _, _ => false
  end.
Lemma lpeqb_eq a b : lpeqb a b = true -> a = b.
Proof.
  revert b; induction a as [|x a IH]; intros [|y b]; simpl; try discriminate; auto.
  rewrite andb_true_iff. intros [H1 H]. f_equal; auto. now apply peqb_eq.
Qed.

Definition kinit : senv := sinit (repeat 16%nat 25) 35.
(* Symbolic comparison of a program over the 25 lanes with a function on symbolic bits. *)
Definition kcheck (p : prog) (f : list poly -> list poly) : bool :=
  let o := firstn 25 (srun p kinit) in
  progok p && forallb (fun w => length w <=? 16)%nat o && lpeqb (sbits o) (f (sbits (firstn 25 kinit))).

Lemma kcheck_sound p f g ws : kcheck p f = true ->
  (forall r A, map (peval r) (f A) = g (map (peval r) A)) -> words25 ws ->
  words25 (firstn 25 (run p (ws ++ repeat 0 35))) /\
  wbits (firstn 25 (run p (ws ++ repeat 0 35))) = g (wbits ws).
Proof.
  unfold kcheck. rewrite !andb_true_iff. intros [[Hp Hlen] Heq] Hfg [Hl Hw].
  destruct (sinit_spec (repeat 16%nat 25) 35 ws) as [Hsl Hrel].
  - now rewrite repeat_length.
  - reflexivity.
  - intros j Hj. rewrite repeat_length in Hj.
    replace (nth j (repeat 16%nat 25) 0%nat) with 16%nat.
    + apply (Forall_nth_lt (fun w => w < 2 ^ 16)); auto. lia.
    + symmetry. apply (repeat_spec 25). apply nth_In. now rewrite repeat_length.
  - fold kinit in Hsl, Hrel. unfold ninit in *.
    pose proof (srun_sound (vinput ws) p _ _ Hp Hsl Hrel) as Hout.
    assert (L1 : length (srun p kinit) = 60%nat).
    { unfold srun. transitivity (length kinit); [|reflexivity].
      generalize kinit. clear. induction p as [|[x e] p IH]; intros k; simpl; auto.
      rewrite IH. apply upd_nth_length. }
    assert (L2 : length (run p (ws ++ repeat 0 35)) = 60%nat).
    { rewrite run_length, app_length, Hl, repeat_length. reflexivity. }
    assert (F2 : Forall2 (srel (vinput ws)) (firstn 25 (srun p kinit)) (firstn 25 (run p (ws ++ repeat 0 35)))).
    { assert (G : forall (a : senv) (b : env), length a = length b ->
        (forall x, srel (vinput ws) (nth x a []) (nth x b 0)) -> forall n, Forall2 (srel (vinput ws)) (firstn n a) (firstn n b)).
      { clear. induction a as [|u a IH]; intros [|v b] Hlen Hx n; try discriminate; destruct n; simpl; constructor.
        - exact (Hx O).
        - apply IH; [simpl in Hlen; lia|]. intros x. exact (Hx (S x)). }
      apply G; auto. now rewrite L1, L2. }
    split.
    + split; [rewrite firstn_length, L2; reflexivity|].
      rewrite forallb_forall in Hlen. clear - F2 Hlen.
      induction F2 as [|s v a b Hr F IH]; constructor.
      * apply lt_pow2_tb. intros i Hi. rewrite Hr. unfold sbit. rewrite nth_overflow; auto.
        specialize (Hlen s (or_introl eq_refl)). apply Nat.leb_le in Hlen. lia.
      * apply IH. intros x Hx. apply Hlen. now right.
    + rewrite <- (sbits_wbits _ _ _ F2). apply lpeqb_eq in Heq. rewrite Heq, Hfg. f_equal.
      apply sbits_wbits.
      assert (G : forall (a : senv) (b : env), length a = length b ->
        (forall x, srel (vinput ws) (nth x a []) (nth x b 0)) -> forall n, Forall2 (srel (vinput ws)) (firstn n a) (firstn n b)).
      { clear. induction a as [|u a IH]; intros [|v b] Hlen Hx n; try discriminate; destruct n; simpl; constructor.
        - exact (Hx O).
        - apply IH; [simpl in Hlen; lia|]. intros x. exact (Hx (S x)). }
      specialize (G _ _ Hsl Hrel 25%nat).
      rewrite firstn_app, Hl, Nat.sub_diag, firstn_O, app_nil_r, (firstn_all2 ws) in G by lia. exact G.
Qed.

Definition prelude_prog : prog := k_ref_theta ++ k_ref_rho ++ k_ref_pi ++ k_ref_chi.
Definition prelude {B} (b0 b1 : B) bx ba A :=
  k_chi B b0 b1 bx ba (k_pi B b0 (k_rho B b0 (k_theta B b0 bx A))).

Lemma prelude_check : kcheck prelude_prog (prelude [] pone pxor pmul) = true.
Proof. vm_compute. reflexivity. Qed.

Lemma iota_check : forallb (fun i => kcheck (k_ref_iota (N.of_nat i)) (k_iota poly [] pone pxor i)) (seq 0 20) = true.
Proof. vm_compute. reflexivity. Qed.

Lemma prelude_hom r A : map (peval r) (prelude [] pone pxor pmul A) = prelude false true xorb andb (map (peval r) A).
Proof.
  unfold prelude.
  rewrite (chi_hom _ _ (peval r) [] pone pxor pmul false true xorb andb); auto using peval_pxor, peval_pmul.
  rewrite (pi_hom _ _ (peval r) [] false); auto.
  rewrite (rho_hom _ _ (peval r) [] false); auto.
  rewrite (theta_hom _ _ (peval r) [] pxor false xorb); auto using peval_pxor.
Qed.

(* iota touches lane 0 only, so scratch contents are irrelevant. *)
Lemma iota_scratch i ws ts : length ws = 25%nat ->
  firstn 25 (run (k_ref_iota i) (ws ++ ts)) = firstn 25 (run (k_ref_iota i) (ws ++ repeat 0 35)).
Proof.
  intros H. destruct ws as [|w ws]; [discriminate|].
  assert (E : forall u, run (k_ref_iota i) ((w :: ws) ++ u) =
    (N.lxor w (nth (N.to_nat i) KeccakRoundConstants 0) :: ws) ++ u) by reflexivity.
  rewrite !E. set (l := _ :: ws). assert (Hl : length l = 25%nat) by exact H.
  rewrite !firstn_app, Hl, Nat.sub_diag, !firstn_O. reflexivity.
Qed.

Theorem keccak_ref_round_spec i ws : (i < 20)%nat -> words25 ws ->
  words25 (keccak_ref_round (N.of_nat i) ws) /\
  wbits (keccak_ref_round (N.of_nat i) ws) = k_round false true xorb andb i (wbits ws).
Proof.
  intros Hi Hw.
  destruct (kcheck_sound _ _ _ ws prelude_check prelude_hom Hw) as [Hw1 E1].
  pose proof iota_check as IC. rewrite forallb_forall in IC. specialize (IC i). rewrite in_seq in IC.
  specialize (IC (conj (Nat.le_0_l _) Hi)).
  assert (IH : forall r A, map (peval r) (k_iota poly [] pone pxor i A) = k_iota bool false true xorb i (map (peval r) A)).
  { intros r A. apply iota_hom; auto using peval_pxor. }
  destruct (kcheck_sound _ _ _ _ IC IH Hw1) as [Hw2 E2].
  unfold keccak_ref_round, k_ref_round.
  replace (k_ref_theta ++ k_ref_rho ++ k_ref_pi ++ k_ref_chi ++ k_ref_iota (N.of_nat i))
    with (prelude_prog ++ k_ref_iota (N.of_nat i)) by (unfold prelude_prog; now rewrite !app_assoc).
  rewrite run_app.
  rewrite <- (firstn_skipn 25 (run prelude_prog (ws ++ repeat 0 35))).
  rewrite iota_scratch by apply Hw1. split; auto. rewrite E2, E1. reflexivity.
Qed.

Lemma keccak_indices_ok r : (r <= 20)%nat ->
  keccak_ref_indices (N.of_nat r) = map N.of_nat (seq (20 - r) r).
Proof. intros Hr. do 21 (destruct r as [|r]; [vm_compute; reflexivity|]). lia. Qed.

Definition krel (ws : list N) (A : list bool) : Prop := words25 ws /\ wbits ws = A.

Theorem keccak_ref_words_spec r ws : (r <= 20)%nat -> words25 ws ->
  words25 (keccak_ref_words (N.of_nat r) ws) /\
  wbits (keccak_ref_words (N.of_nat r) ws) = keccak_p_bits false true xorb andb r (wbits ws).
Proof.
  intros Hr Hw. unfold keccak_ref_words, keccak_p_bits. rewrite keccak_indices_ok by auto.
  apply (fold_sim2 (fun ws i => keccak_ref_round i ws) (fun A ir => k_round false true xorb andb ir A) N.of_nat krel).
  - intros e s i Hi [Hw1 <-]. apply in_seq in Hi. apply keccak_ref_round_spec; auto. lia.
  - split; auto.
Qed.

(* From lanes to bytes. *)
Lemma wbits_two a b : a < 256 -> b < 256 ->
  map (bit (le_word [a; b])) (seq 0 16) = map (bit a) (seq 0 8) ++ map (bit b) (seq 0 8).
Proof.
  intros Ha Hb.
  assert (H : forall i, N.testbit (le_word [a; b]) i = N.testbit (nth (N.to_nat (i / 8)) [a; b] 0) (i mod 8)).
  { intros i. apply tb_le_word. repeat constructor; auto. }
  unfold bit. cbn [seq map app]. rewrite !H. reflexivity.
Qed.

Lemma list_ind2 {A} (P : list A -> Prop) : P [] -> (forall a, P [a]) -> (forall a b l, P l -> P (a :: b :: l)) ->
  forall l, P l.
Proof.
  intros H0 H1 H2. fix F 1. intros [|a [|b l]]; [exact H0 | apply H1 | apply H2, F].
Qed.

Lemma bits_of_bytes_wbits bs : bytes bs -> Nat.even (length bs) = true ->
  bits_of_bytes bs = wbits (map le_word (chunks 2 bs)).
Proof.
  induction bs as [|a|a b bs IH] using list_ind2; intros Hb He; auto; [discriminate|].
  change (a :: b :: bs) with ([a; b] ++ bs). rewrite chunks_app by (auto; lia).
  unfold bits_of_bytes, wbits in *. cbn [map concat app].
  inversion Hb as [|? ? Ha Hb']; subst. inversion Hb' as [|? ? Hb1 Hb2]; subst.
  rewrite wbits_two, <- app_assoc by auto. rewrite IH by auto. reflexivity.
Qed.

Lemma N_of_bits_byte w k : N_of_bits (map (bit w) (seq (8 * k) 8)) = byte_at w k.
Proof.
  apply bits_inj_iff'. intros i. rewrite tb_N_of_bits, tb_byte_at.
  destruct (N.ltb_spec i 8) as [Hi|Hi]; cbn [andb].
  - rewrite (nth_map_lt _ _ _ O) by (rewrite seq_length; lia). rewrite seq_nth by lia. unfold bit. f_equal. lia.
  - apply nth_overflow. rewrite map_length, seq_length. lia.
Qed.

Lemma bytes_of_bits_wbits ws : bytes_of_bits (wbits ws) = concat (map (word_le 2) ws).
Proof.
  unfold bytes_of_bits, wbits. induction ws as [|w ws IH]; auto. cbn [map concat].
  assert (E : map (bit w) (seq 0 16) = map (bit w) (seq (8 * 0) 8) ++ map (bit w) (seq (8 * 1) 8))
    by (rewrite <- map_app; reflexivity).
  rewrite E, <- !app_assoc.
  rewrite !chunks_app by (auto; lia). cbn [map]. rewrite !N_of_bits_byte, IH. reflexivity.
Qed.

Lemma words25_chunks bs : bytes bs -> length bs = 50%nat -> words25 (map le_word (chunks 2 bs)).
Proof.
  intros Hb Hl. destruct (chunks_length_mult 2 25 bs) as [H1 H2]; [lia|auto|].
  split; [now rewrite map_length|]. apply Forall_map.
  pose proof (chunks_Forall _ 2 _ Hb) as H3.
  rewrite Forall_forall in *. intros x Hx.
  replace 16 with (8 * N.of_nat (length x)) by (rewrite (H2 x Hx); reflexivity).
  apply le_word_lt. apply (H3 x Hx).
Qed.

Theorem keccak_ref_bytes r bs : (r <= 20)%nat -> bytes bs -> length bs = 50%nat ->
  concat (map (word_le 2) (keccak_ref_words (N.of_nat r) (map le_word (chunks 2 bs)))) = keccak_p r bs.
Proof.
  intros Hr Hb Hl. unfold keccak_p. rewrite bits_of_bytes_wbits by (auto; now rewrite Hl).
  destruct (keccak_ref_words_spec r _ Hr (words25_chunks bs Hb Hl)) as [_ <-].
  now rewrite bytes_of_bits_wbits.
Qed.

Lemma keccak_p_bytes r bs : (r <= 20)%nat -> bytes bs -> length bs = 50%nat ->
  bytes (keccak_p r bs) /\ length (keccak_p r bs) = 50%nat.
Proof.
  intros Hr Hb Hl. rewrite <- keccak_ref_bytes by auto.
  destruct (keccak_ref_words_spec r _ Hr (words25_chunks bs Hb Hl)) as [[H1 _] _]. split.
  - apply Forall_concat. apply Forall_map, Forall_forall. intros. apply bytes_word_le.
  - assert (G : forall ws, length (concat (map (word_le 2) ws)) = (2 * length ws)%nat).
    { induction ws as [|w ws IH]; auto. cbn [map concat]. rewrite app_length, word_le_length, IH. simpl length. lia. }
    rewrite G, H1. reflexivity.
Qed.
