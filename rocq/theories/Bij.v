(* The two specified permutations are bijections on byte states. Proofs only. *)
From Verif Require Import Base Prog SpecPerm Words AsconProof KeccakProof.
From Coq Require Import FinFun.
Open Scope N_scope.

(* ---------- Ascon linear layer ---------- *)

(* x + (x >>> a) + (x >>> b) on bit functions of period 64. *)
Definition sg (a b : nat) (f : nat -> bool) (j : nat) : bool := xorb (f j) (xorb (f (j + a)%nat) (f (j + b)%nat)).

Lemma sg_sq a b f j : sg a b (sg a b f) j = sg (2 * a) (2 * b) f j.
Proof.
  unfold sg. replace (j + a + a)%nat with (j + 2 * a)%nat by lia.
  replace (j + b + b)%nat with (j + 2 * b)%nat by lia.
  replace (j + b + a)%nat with (j + a + b)%nat by lia.
  destruct (f j), (f (j + a)%nat), (f (j + b)%nat), (f (j + 2 * a)%nat), (f (j + 2 * b)%nat), (f (j + a + b)%nat); reflexivity.
Qed.

Lemma sg_ext a b f g : (forall j, f j = g j) -> forall j, sg a b f j = sg a b g j.
Proof. intros H j. unfold sg. now rewrite !H. Qed.

Lemma sg_double a b f g : (forall j, sg a b f j = sg a b g j) -> forall j, sg (2 * a) (2 * b) f j = sg (2 * a) (2 * b) g j.
Proof. intros H j. rewrite <- !sg_sq. now apply sg_ext. Qed.

Definition per (k : nat) (f : nat -> bool) : Prop := forall j, f j = f (j mod k)%nat.

Lemma sg_inj a b f g : per 64 f -> per 64 g -> (forall j, sg a b f j = sg a b g j) -> forall j, f j = g j.
Proof.
  intros Hf Hg H j. do 6 (let K := fresh in pose proof (sg_double _ _ _ _ H) as K; clear H; rename K into H). specialize (H j). unfold sg in H.
  assert (E : forall x, ((j + 2 * (2 * (2 * (2 * (2 * (2 * x)))))) mod 64 = j mod 64)%nat).
  { intros x. replace (j + _)%nat with (j + x * 64)%nat by lia. apply Nat.mod_add. lia. }
  rewrite !(Hf (j + _)%nat), !(Hg (j + _)%nat), !E, <- !Hf, <- !Hg in H.
  destruct (f j), (g j); auto.
Qed.

Lemma bit_inj_w w u v : u < 2 ^ N.of_nat w -> v < 2 ^ N.of_nat w -> (forall j, (j < w)%nat -> bit u j = bit v j) -> u = v.
Proof.
  intros Hu Hv H. apply bits_inj_iff'. intros i. destruct (N.ltb_spec i (N.of_nat w)) as [Hi|Hi].
  - specialize (H (N.to_nat i)). unfold bit in H. rewrite N2Nat.id in H. apply H. lia.
  - now rewrite !(tb_high _ (N.of_nat w)).
Qed.

Lemma bit_mkword w f j : (j < w)%nat -> bit (mkword w f) j = f j.
Proof.
  intros H. unfold bit. rewrite tb_mkword. replace (N.of_nat j <? N.of_nat w) with true by lia. now rewrite Nat2N.id.
Qed.

Lemma ascon_sigma_inj a b u v : w64 u -> w64 v -> ascon_sigma a b u = ascon_sigma a b v -> u = v.
Proof.
  intros Hu Hv H. apply (bit_inj_w 64); auto. intros j Hj.
  assert (K : forall i, bit u (i mod 64) = bit v (i mod 64)).
  { apply (sg_inj a b (fun i => bit u (i mod 64)) (fun i => bit v (i mod 64))).
    - intros i. now rewrite Nat.mod_mod.
    - intros i. now rewrite Nat.mod_mod.
    - intros i. pose proof (Nat.mod_upper_bound i 64 ltac:(lia)) as Hi.
      pose proof (f_equal (fun w => bit w (i mod 64)) H) as E. cbn beta in E. unfold ascon_sigma in E.
      rewrite !bit_mkword in E by auto. unfold sg. rewrite !Nat.add_mod_idemp_l in E by lia. exact E. }
  specialize (K j). now rewrite Nat.mod_small in K by auto.
Qed.

(* ---------- Ascon substitution layer ---------- *)

Definition ascon_sbox_inv : list N :=
  [20; 26; 7; 13; 0; 9; 14; 18; 10; 6; 29; 1; 25; 21; 19; 30;
   24; 22; 11; 17; 3; 5; 28; 31; 23; 27; 4; 8; 15; 12; 16; 2].

Lemma sbox_inv_ok : forallb (fun i => nth (N.to_nat (nth i ascon_sbox 0)) ascon_sbox_inv 0 =? N.of_nat i) (seq 0 32) = true.
Proof. vm_compute. reflexivity. Qed.

Lemma sbox_lt i : nth i ascon_sbox 0 < 32.
Proof. do 32 (destruct i as [|i]; [reflexivity|]). destruct i; reflexivity. Qed.

Lemma col_lt s j : col s j < 32.
Proof. unfold col. destruct (bit _ j), (bit _ j), (bit _ j), (bit _ j), (bit _ j); cbn [b2n]; lia. Qed.

Lemma lt32_bits u v : u < 32 -> v < 32 -> (forall r, (r < 5)%nat -> N.testbit u (4 - N.of_nat r) = N.testbit v (4 - N.of_nat r)) -> u = v.
Proof.
  intros Hu Hv H. apply (bit_inj_w 5); auto. intros j Hj. specialize (H (4 - j)%nat ltac:(lia)).
  unfold bit. replace (4 - N.of_nat (4 - j)) with (N.of_nat j) in H by lia. exact H.
Qed.

Lemma col_bits s t j : col s j = col t j ->
  bit (nth 0 s 0) j = bit (nth 0 t 0) j /\ bit (nth 1 s 0) j = bit (nth 1 t 0) j /\ bit (nth 2 s 0) j = bit (nth 2 t 0) j /\
  bit (nth 3 s 0) j = bit (nth 3 t 0) j /\ bit (nth 4 s 0) j = bit (nth 4 t 0) j.
Proof.
  unfold col. generalize (bit (nth 0 s 0) j) (bit (nth 1 s 0) j) (bit (nth 2 s 0) j) (bit (nth 3 s 0) j) (bit (nth 4 s 0) j)
    (bit (nth 0 t 0) j) (bit (nth 1 t 0) j) (bit (nth 2 t 0) j) (bit (nth 3 t 0) j) (bit (nth 4 t 0) j).
  intros a b c d e a' b' c' d' e'. unfold b2n. intros H.
  assert (a = a') by (destruct a, a', b, b', c, c', d, d', e, e'; try reflexivity; exfalso; discriminate H).
  assert (b = b') by (subst; destruct a', b, b', c, c', d, d', e, e'; try reflexivity; exfalso; discriminate H).
  assert (c = c') by (subst; destruct a', b', c, c', d, d', e, e'; try reflexivity; exfalso; discriminate H).
  assert (d = d') by (subst; destruct a', b', c', d, d', e, e'; try reflexivity; exfalso; discriminate H).
  assert (e = e') by (subst; destruct a', b', c', d', e, e'; try reflexivity; exfalso; discriminate H).
  auto.
Qed.

Lemma ascon_sub_inj s t : words5 s -> words5 t -> ascon_sub s = ascon_sub t -> s = t.
Proof.
  intros Hs Ht H.
  assert (C : forall j, (j < 64)%nat -> col s j = col t j).
  { intros j Hj.
    assert (E : nth (N.to_nat (col s j)) ascon_sbox 0 = nth (N.to_nat (col t j)) ascon_sbox 0).
    { apply lt32_bits; try apply sbox_lt. intros r Hr.
      pose proof (f_equal (fun l => bit (nth r l 0) j) H) as E. cbn beta in E. unfold ascon_sub in E.
      rewrite !(nth_map_lt _ _ _ O) in E by (rewrite seq_length; lia). rewrite !seq_nth in E by lia.
      rewrite !bit_mkword in E by auto. exact E. }
    assert (K : forall n, (n < 32)%nat -> nth (N.to_nat (nth n ascon_sbox 0)) ascon_sbox_inv 0 = N.of_nat n).
    { intros n Hn. pose proof sbox_inv_ok as F. rewrite forallb_forall in F.
      apply N.eqb_eq, F. apply in_seq. lia. }
    pose proof (col_lt s j). pose proof (col_lt t j).
    pose proof (K (N.to_nat (col s j)) ltac:(lia)) as K1. pose proof (K (N.to_nat (col t j)) ltac:(lia)) as K2.
    rewrite E in K1. lia. }
  destruct (words5_inv s Hs) as (a & b & c & d & e & -> & Ha & Hb & Hc & Hd & He).
  destruct (words5_inv t Ht) as (a' & b' & c' & d' & e' & -> & Ha' & Hb' & Hc' & Hd' & He').
  assert (B : forall j, (j < 64)%nat -> bit a j = bit a' j /\ bit b j = bit b' j /\ bit c j = bit c' j /\ bit d j = bit d' j /\ bit e j = bit e' j).
  { intros j Hj. exact (col_bits _ _ j (C j Hj)). }
  f_equal; [|f_equal; [|f_equal; [|f_equal; [|f_equal]]]]; apply (bit_inj_w 64); auto; intros j Hj; now apply B.
Qed.

Lemma lxor_inj a b c : N.lxor a c = N.lxor b c -> a = b.
Proof.
  intros H. apply (f_equal (fun x => N.lxor x c)) in H. now rewrite !N.lxor_assoc, N.lxor_nilpotent, !N.lxor_0_r in H.
Qed.

Lemma lxor_lt64 a b : w64 a -> w64 b -> w64 (N.lxor a b).
Proof. apply lxor_lt. Qed.

Lemma ascon_addc_words c s : w64 c -> words5 s -> words5 (ascon_addc c s).
Proof.
  intros Hc0 Hs. destruct (words5_inv s Hs) as (a & b & c' & d & e & -> & Ha & Hb & Hc & Hd & He).
  apply words5_mk; auto. cbn [nth]. now apply lxor_lt64.
Qed.

Lemma ascon_round_inj c s t : w64 c -> words5 s -> words5 t -> ascon_round c s = ascon_round c t -> s = t.
Proof.
  intros Hc Hs Ht H. unfold ascon_round in H.
  assert (E : ascon_sub (ascon_addc c s) = ascon_sub (ascon_addc c t)).
  { destruct (words5_inv _ (ascon_sub_words (ascon_addc c s))) as (x0 & x1 & x2 & x3 & x4 & E1 & ? & ? & ? & ? & ?).
    destruct (words5_inv _ (ascon_sub_words (ascon_addc c t))) as (y0 & y1 & y2 & y3 & y4 & E2 & ? & ? & ? & ? & ?).
    rewrite E1, E2 in *. unfold ascon_lin in H. cbn [nth] in H. injection H as G0 G1 G2 G3 G4.
    apply ascon_sigma_inj in G0, G1, G2, G3, G4; auto. now subst. }
  apply ascon_sub_inj in E; try now apply ascon_addc_words.
  destruct (words5_inv s Hs) as (a & b & cc & d & e & -> & _).
  destruct (words5_inv t Ht) as (a' & b' & cc' & d' & e' & -> & _).
  unfold ascon_addc in E. cbn [nth] in E. injection E as -> -> E3 -> ->. apply lxor_inj in E3. now subst.
Qed.

Lemma ascon_rc_w64 r c : In c (skipn (12 - r) ascon_rc) -> w64 c.
Proof.
  intros H. assert (K : In c ascon_rc) by (rewrite <- (firstn_skipn (12 - r)); apply in_or_app; now right).
  clear H. unfold ascon_rc in K. repeat (destruct K as [<-|K]; [reflexivity|]). contradiction.
Qed.

Lemma fold_round_inj l : (forall c, In c l -> w64 c) -> forall s t, words5 s -> words5 t ->
  fold_left (fun s c => ascon_round c s) l s = fold_left (fun s c => ascon_round c s) l t -> s = t.
Proof.
  induction l as [|c l IH]; intros Hl s t Hs Ht H; auto. cbn [fold_left] in H.
  apply IH in H; try apply ascon_round_words; [|intros; apply Hl; now right].
  apply (ascon_round_inj c); auto. apply Hl. now left.
Qed.

Lemma map_inj_in {A B} (P : A -> Prop) (f : A -> B) : (forall x y, P x -> P y -> f x = f y -> x = y) ->
  forall l l', Forall P l -> Forall P l' -> map f l = map f l' -> l = l'.
Proof.
  intros Hf. induction l as [|x l IH]; intros [|y l'] H1 H2 H; try discriminate; auto.
  inversion H1; subst; inversion H2; subst. cbn [map] in H. injection H as Hx H. f_equal; auto.
Qed.

Lemma concat_inj_const {A} k (ls ls' : list (list A)) : (0 < k)%nat -> Forall (fun l => length l = k) ls ->
  Forall (fun l => length l = k) ls' -> concat ls = concat ls' -> ls = ls'.
Proof. intros Hk H1 H2 H. rewrite <- (chunks_concat k ls), <- (chunks_concat k ls') by auto. now rewrite H. Qed.

Lemma chunks_inj {A} k (a b : list A) : (0 < k)%nat -> chunks k a = chunks k b -> a = b.
Proof. intros Hk H. rewrite <- (concat_chunks k a), <- (concat_chunks k b) by auto. now rewrite H. Qed.

Lemma be_word_inj n a b : bytes a -> bytes b -> length a = n -> length b = n -> be_word a = be_word b -> a = b.
Proof. intros Ha Hb La Lb H. rewrite <- (word_be_be_word a n), <- (word_be_be_word b n) by auto. now rewrite H. Qed.

Lemma ascon_p_inj r s t : bytes s -> bytes t -> length s = 40%nat -> length t = 40%nat ->
  ascon_p r s = ascon_p r t -> s = t.
Proof.
  intros Hs Ht Ls Lt H. unfold ascon_p in H.
  pose proof (words5_chunks s Hs Ls) as Ws. pose proof (words5_chunks t Ht Lt) as Wt.
  pose proof (ascon_p_words_words r _ Ws) as [_ Us]. pose proof (ascon_p_words_words r _ Wt) as [_ Ut].
  apply (concat_inj_const 8) in H; try lia; try (apply Forall_map, Forall_forall; intros; apply word_be_length).
  apply (map_inj_in w64) in H; auto.
  2:{ intros x y Hx Hy E. rewrite <- (be_word_word_be 8 x), <- (be_word_word_be 8 y) by auto. now rewrite E. }
  apply fold_round_inj in H; auto. 2:{ intros c. apply ascon_rc_w64. }
  apply (map_inj_in (fun l => bytes l /\ length l = 8%nat)) in H.
  - apply chunks_inj in H; [exact H|lia].
  - intros x y [? ?] [? ?]. now apply (be_word_inj 8).
  - pose proof (chunks_Forall _ 8 _ Hs) as H0. destruct (chunks_length_mult 8 5 s) as [_ K]; auto; [lia|].
    rewrite Forall_forall in *. intros x Hx. split; [now apply H0 | now apply K].
  - pose proof (chunks_Forall _ 8 _ Ht) as H0. destruct (chunks_length_mult 8 5 t) as [_ K]; auto; [lia|].
    rewrite Forall_forall in *. intros x Hx. split; [now apply H0 | now apply K].
Qed.

(* ---------- Keccak ---------- *)

Notation kgt := (kget bool false).
Notation kth := (k_theta bool false xorb).
Notation krh := (k_rho bool false).
Notation kpi := (k_pi bool false).
Notation kch := (k_chi bool false true xorb andb).
Notation kio := (k_iota bool false true xorb).

Lemma kidx_lt x y z : (kidx x y z < 400)%nat.
Proof. unfold kidx. lia. Qed.

Lemma kget_kmk f x y z : kgt (kmk bool f) x y z = f (x mod 5)%nat (y mod 5)%nat (z mod 16)%nat.
Proof.
  unfold kget, kmk. pose proof (kidx_lt x y z).
  rewrite (nth_map_lt _ _ _ O) by (rewrite seq_length; auto). rewrite seq_nth by auto. cbn [plus].
  unfold kidx. f_equal; lia.
Qed.

Lemma kmk_length f : length (kmk bool f) = 400%nat.
Proof. unfold kmk. now rewrite map_length, seq_length. Qed.

(* Equality of states, seen through lane coordinates. *)
Lemma k_ext A A' : length A = 400%nat -> length A' = 400%nat ->
  (forall x y z, (x < 5)%nat -> (y < 5)%nat -> (z < 16)%nat -> kgt A x y z = kgt A' x y z) -> A = A'.
Proof.
  intros L L' H. apply (nth_ext_le _ _ false); [congruence|]. intros i Hi. rewrite L in Hi.
  assert (E : i = kidx ((i / 16) mod 5) (i / 80) (i mod 16)) by (unfold kidx; lia).
  rewrite E. apply H; lia.
Qed.

Lemma kgt_mod A x y z : kgt A (x mod 5) (y mod 5) (z mod 16) = kgt A x y z.
Proof. unfold kget, kidx. now rewrite !Nat.mod_mod. Qed.

Lemma kgt_eq A x y z x' y' z' : (x mod 5 = x' mod 5 -> y mod 5 = y' mod 5 -> z mod 16 = z' mod 16 ->
  kgt A x y z = kgt A x' y' z')%nat.
Proof. intros H1 H2 H3. unfold kget, kidx. now rewrite H1, H2, H3. Qed.

(* theta: column parities evolve by 1 + x + x^4 z over GF(2)[x,z]/(x^5-1, z^16-1). *)
Definition tw (a b c d : nat) (f : nat -> nat -> bool) (x z : nat) : bool :=
  xorb (f x z) (xorb (f (x + a)%nat (z + b)%nat) (f (x + c)%nat (z + d)%nat)).

Lemma tw_sq a b c d f x z : tw a b c d (tw a b c d f) x z = tw (2 * a) (2 * b) (2 * c) (2 * d) f x z.
Proof.
  unfold tw. replace (x + a + a)%nat with (x + 2 * a)%nat by lia. replace (z + b + b)%nat with (z + 2 * b)%nat by lia.
  replace (x + c + c)%nat with (x + 2 * c)%nat by lia. replace (z + d + d)%nat with (z + 2 * d)%nat by lia.
  replace (x + c + a)%nat with (x + a + c)%nat by lia. replace (z + d + b)%nat with (z + b + d)%nat by lia.
  destruct (f x z), (f (x + a) (z + b))%nat, (f (x + c) (z + d))%nat, (f (x + 2 * a) (z + 2 * b))%nat,
    (f (x + 2 * c) (z + 2 * d))%nat, (f (x + a + c) (z + b + d))%nat; reflexivity.
Qed.

Lemma tw_double a b c d f g : (forall x z, tw a b c d f x z = tw a b c d g x z) ->
  forall x z, tw (2 * a) (2 * b) (2 * c) (2 * d) f x z = tw (2 * a) (2 * b) (2 * c) (2 * d) g x z.
Proof. intros H x z. rewrite <- !tw_sq. unfold tw at 1 3. now rewrite !H. Qed.

Lemma tw_inj f g : (forall x z, f x z = f (x mod 5)%nat (z mod 16)%nat) -> (forall x z, g x z = g (x mod 5)%nat (z mod 16)%nat) ->
  (forall x z, tw 4 0 1 15 f x z = tw 4 0 1 15 g x z) -> forall x z, f x z = g x z.
Proof.
  intros Hf Hg H.
  do 4 (let K := fresh in pose proof (tw_double _ _ _ _ _ _ H) as K; clear H; rename K into H).
  assert (Q : forall x z, xorb (f x z) (xorb (f (x + 4)%nat z) (f (x + 1)%nat z)) = xorb (g x z) (xorb (g (x + 4)%nat z) (g (x + 1)%nat z))).
  { intros x z. specialize (H x z). unfold tw in H.
    rewrite (Hf (x + _)%nat (z + 2 * (2 * (2 * (2 * 0))))%nat), (Hf (x + _)%nat (z + 2 * (2 * (2 * (2 * 15))))%nat) in H.
    rewrite (Hg (x + _)%nat (z + 2 * (2 * (2 * (2 * 0))))%nat), (Hg (x + _)%nat (z + 2 * (2 * (2 * (2 * 15))))%nat) in H.
    rewrite (Hf (x + 4)%nat), (Hf (x + 1)%nat), (Hg (x + 4)%nat), (Hg (x + 1)%nat).
    replace ((x + 4) mod 5)%nat with ((x + 2 * (2 * (2 * (2 * 4)))) mod 5)%nat by lia.
    replace ((x + 1) mod 5)%nat with ((x + 2 * (2 * (2 * (2 * 1)))) mod 5)%nat by lia.
    replace ((z + 2 * (2 * (2 * (2 * 0)))) mod 16)%nat with (z mod 16)%nat in H by lia.
    replace ((z + 2 * (2 * (2 * (2 * 15)))) mod 16)%nat with (z mod 16)%nat in H by lia.
    exact H. }
  clear H. intros x z.
  assert (P5 : forall k h, (forall x z, h x z = h (x mod 5)%nat (z mod 16)%nat) -> h (x + (k + 5))%nat z = h (x + k)%nat z :> bool).
  { intros k h Hh. rewrite (Hh (x + (k + 5))%nat), (Hh (x + k)%nat). f_equal. lia. }
  pose proof (Q x z) as Q0. pose proof (Q (x + 2)%nat z) as Q2. pose proof (Q (x + 3)%nat z) as Q3.
  replace (x + 2 + 4)%nat with (x + (1 + 5))%nat in Q2 by lia. replace (x + 2 + 1)%nat with (x + 3)%nat in Q2 by lia.
  replace (x + 3 + 4)%nat with (x + (2 + 5))%nat in Q3 by lia. replace (x + 3 + 1)%nat with (x + 4)%nat in Q3 by lia.
  rewrite !P5 in Q2, Q3 by assumption.
  revert Q0 Q2 Q3.
  destruct (f x z), (g x z), (f (x + 1)%nat z), (g (x + 1)%nat z), (f (x + 2)%nat z), (g (x + 2)%nat z),
    (f (x + 3)%nat z), (g (x + 3)%nat z), (f (x + 4)%nat z), (g (x + 4)%nat z); try reflexivity; cbn; congruence.
Qed.

Definition kpar (A : list bool) (x z : nat) : bool :=
  xorb (xorb (xorb (xorb (kgt A x 0 z) (kgt A x 1 z)) (kgt A x 2 z)) (kgt A x 3 z)) (kgt A x 4 z).

Lemma kpar_mod A x z : kpar A x z = kpar A (x mod 5) (z mod 16).
Proof. unfold kpar. f_equal; [f_equal; [f_equal; [f_equal|]|]|]; apply kgt_eq; auto; symmetry; now apply Nat.mod_mod. Qed.

Lemma kget_theta A x y z : kgt (kth A) x y z = xorb (kgt A x y z) (xorb (kpar A (x + 4) z) (kpar A (x + 1) (z + 15))).
Proof.
  unfold k_theta. rewrite kget_kmk.
  set (C := map _ (seq 0 80)).
  assert (HC : forall u w, nth (16 * (u mod 5) + w mod 16)%nat C false = kpar A u w).
  { intros u w. unfold C. rewrite (nth_map_lt _ _ _ O) by (rewrite seq_length; lia). rewrite seq_nth by lia. cbn [plus].
    replace ((16 * (u mod 5) + w mod 16) / 16)%nat with (u mod 5)%nat by lia.
    replace ((16 * (u mod 5) + w mod 16) mod 16)%nat with (w mod 16)%nat by lia.
    symmetry. apply (kpar_mod A u w). }
  clearbody C. rewrite !HC, kgt_mod. f_equal. f_equal.
  - rewrite kpar_mod, (kpar_mod A (x + 4)). f_equal; lia.
  - rewrite kpar_mod, (kpar_mod A (x + 1)). f_equal; lia.
Qed.

Lemma kpar_theta A x z : kpar (kth A) x z = tw 4 0 1 15 (kpar A) x z.
Proof.
  unfold kpar at 1. rewrite !kget_theta. unfold tw. rewrite Nat.add_0_r.
  replace (kpar A x z) with (xorb (xorb (xorb (xorb (kgt A x 0 z) (kgt A x 1 z)) (kgt A x 2 z)) (kgt A x 3 z)) (kgt A x 4 z)) by reflexivity.
  destruct (kgt A x 0 z), (kgt A x 1 z), (kgt A x 2 z), (kgt A x 3 z), (kgt A x 4 z), (kpar A (x + 4) z), (kpar A (x + 1) (z + 15)); reflexivity.
Qed.

Lemma kgt_f_equal A A' : A = A' -> forall x y z, kgt A x y z = kgt A' x y z.
Proof. now intros ->. Qed.

Lemma k_theta_inj A A' : length A = 400%nat -> length A' = 400%nat -> kth A = kth A' -> A = A'.
Proof.
  intros L L' H. pose proof (kgt_f_equal _ _ H) as K.
  assert (E : forall x z, kpar A x z = kpar A' x z).
  { apply tw_inj; [apply kpar_mod | apply kpar_mod|]. intros x z. rewrite <- !kpar_theta. unfold kpar. now rewrite !K. }
  apply k_ext; auto. intros x y z _ _ _. specialize (K x y z). rewrite !kget_theta, !E in K.
  destruct (kgt A x y z), (kgt A' x y z), (xorb (kpar A' (x + 4) z) (kpar A' (x + 1) (z + 15))); auto.
Qed.

Lemma rho_tab_lt i : (nth i rho_tab 0 < 16)%nat.
Proof.
  destruct (Nat.ltb_spec i 25) as [Hi|Hi].
  - unfold rho_tab. rewrite (nth_map_lt _ _ _ O) by (rewrite seq_length; auto). apply Nat.mod_upper_bound. lia.
  - rewrite nth_overflow; [lia|]. unfold rho_tab. rewrite map_length, seq_length. lia.
Qed.

Lemma k_rho_inj A A' : length A = 400%nat -> length A' = 400%nat -> krh A = krh A' -> A = A'.
Proof.
  intros L L' H. pose proof (kgt_f_equal _ _ H) as K.
  apply k_ext; auto. intros x y z Hx Hy Hz. pose proof (rho_tab_lt (5 * y + x)) as Hr.
  specialize (K x y (z + nth (5 * y + x) rho_tab 0)%nat). unfold k_rho in K. rewrite !kget_kmk in K.
  rewrite (Nat.mod_small x), (Nat.mod_small y) in K by auto.
  set (o := nth (5 * y + x) rho_tab 0%nat) in *. clearbody o.
  rewrite (kgt_eq A _ _ _ x y z), (kgt_eq A' _ _ _ x y z) in K; auto; lia.
Qed.

Lemma k_pi_inj A A' : length A = 400%nat -> length A' = 400%nat -> kpi A = kpi A' -> A = A'.
Proof.
  intros L L' H. pose proof (kgt_f_equal _ _ H) as K.
  apply k_ext; auto. intros x y z Hx Hy Hz.
  specialize (K y (2 * (x + 4 * y))%nat z). unfold k_pi in K. rewrite !kget_kmk in K.
  rewrite (kgt_eq A _ _ _ x y z), (kgt_eq A' _ _ _ x y z) in K; auto; lia.
Qed.

Lemma chi_row a b c d e a' b' c' d' e' :
  xorb a (xorb b true && c) = xorb a' (xorb b' true && c') ->
  xorb b (xorb c true && d) = xorb b' (xorb c' true && d') ->
  xorb c (xorb d true && e) = xorb c' (xorb d' true && e') ->
  xorb d (xorb e true && a) = xorb d' (xorb e' true && a') ->
  xorb e (xorb a true && b) = xorb e' (xorb a' true && b') -> a = a'.
Proof. destruct a, b, c, d, e, a', b', c', d', e'; cbn; congruence. Qed.

Lemma kget_chi A x y z : kgt (kch A) x y z = xorb (kgt A x y z) (xorb (kgt A (x + 1) y z) true && kgt A (x + 2) y z).
Proof.
  unfold k_chi. rewrite kget_kmk. rewrite kgt_mod. f_equal. f_equal; [f_equal|]; apply kgt_eq; lia.
Qed.

Lemma k_chi_inj A A' : length A = 400%nat -> length A' = 400%nat -> kch A = kch A' -> A = A'.
Proof.
  intros L L' H. pose proof (kgt_f_equal _ _ H) as K.
  apply k_ext; auto. intros x y z _ _ _.
  assert (W : forall B k, kgt B (x + k + 5) y z = kgt B (x + k) y z) by (intros; apply kgt_eq; lia).
  assert (W0 : forall B, kgt B (x + 5) y z = kgt B x y z) by (intros; apply kgt_eq; lia).
  apply (chi_row _ (kgt A (x + 1) y z) (kgt A (x + 2) y z) (kgt A (x + 3) y z) (kgt A (x + 4) y z)
                 _ (kgt A' (x + 1) y z) (kgt A' (x + 2) y z) (kgt A' (x + 3) y z) (kgt A' (x + 4) y z)).
  - pose proof (K x y z) as Q. rewrite !kget_chi in Q. exact Q.
  - pose proof (K (x + 1)%nat y z) as Q. rewrite !kget_chi in Q. rewrite <- !Nat.add_assoc in Q. exact Q.
  - pose proof (K (x + 2)%nat y z) as Q. rewrite !kget_chi in Q. rewrite <- !Nat.add_assoc in Q. exact Q.
  - pose proof (K (x + 3)%nat y z) as Q. rewrite !kget_chi in Q. rewrite <- !Nat.add_assoc in Q. cbn [plus] in Q.
    rewrite !W0 in Q. exact Q.
  - pose proof (K (x + 4)%nat y z) as Q. rewrite !kget_chi in Q. rewrite <- !Nat.add_assoc in Q. cbn [plus] in Q.
    rewrite !W0 in Q. replace (x + 6)%nat with (x + 1 + 5)%nat in Q by lia. rewrite !W in Q. exact Q.
Qed.

Lemma k_iota_inj i A A' : length A = 400%nat -> length A' = 400%nat -> kio i A = kio i A' -> A = A'.
Proof.
  intros L L' H. pose proof (kgt_f_equal _ _ H) as K.
  apply k_ext; auto. intros x y z Hx Hy Hz. specialize (K x y z). unfold k_iota in K. rewrite !kget_kmk in K.
  rewrite !kgt_mod in K. destruct (_ && _); auto. destruct (kgt A x y z), (kgt A' x y z); auto; discriminate.
Qed.

Lemma k_round_inj i A A' : length A = 400%nat -> length A' = 400%nat ->
  k_round false true xorb andb i A = k_round false true xorb andb i A' -> A = A'.
Proof.
  intros L L' H. unfold k_round in H.
  apply k_iota_inj in H; try apply kmk_length. apply k_chi_inj in H; try apply kmk_length.
  apply k_pi_inj in H; try apply kmk_length. apply k_rho_inj in H; try apply kmk_length.
  now apply k_theta_inj in H.
Qed.

Lemma keccak_p_bits_length r A : length A = 400%nat -> length (keccak_p_bits false true xorb andb r A) = 400%nat.
Proof.
  unfold keccak_p_bits. generalize (seq (20 - r) r) as l. intros l; revert A.
  induction l as [|i l IH]; intros A L; cbn [fold_left]; [exact L|]. apply IH, kmk_length.
Qed.

Lemma keccak_p_bits_inj r A A' : length A = 400%nat -> length A' = 400%nat ->
  keccak_p_bits false true xorb andb r A = keccak_p_bits false true xorb andb r A' -> A = A'.
Proof.
  unfold keccak_p_bits. generalize (seq (20 - r) r) as l. intros l; revert A A'.
  induction l as [|i l IH]; intros A A' L L' H; cbn [fold_left] in H; auto.
  apply IH in H; try apply kmk_length. now apply (k_round_inj i).
Qed.

Lemma bits_of_bytes_length bs : length (bits_of_bytes bs) = (8 * length bs)%nat.
Proof.
  unfold bits_of_bytes. rewrite (concat_length_const 8); [rewrite map_length; lia|].
  apply Forall_map, Forall_forall. intros. now rewrite map_length, seq_length.
Qed.

Lemma byte_bits_inj x y : x < 256 -> y < 256 -> map (bit x) (seq 0 8) = map (bit y) (seq 0 8) -> x = y.
Proof.
  intros Hx Hy H. apply (bit_inj_w 8); auto. intros j Hj.
  pose proof (f_equal (fun l => nth j l false) H) as E. cbn beta in E.
  rewrite !(nth_map_lt _ _ _ O), !seq_nth in E by (rewrite ?seq_length; auto). exact E.
Qed.

Lemma bits_of_bytes_inj a b : bytes a -> bytes b -> bits_of_bytes a = bits_of_bytes b -> a = b.
Proof.
  intros Ha Hb H. unfold bits_of_bytes in H.
  apply (concat_inj_const 8) in H; try lia; try (apply Forall_map, Forall_forall; intros; now rewrite map_length, seq_length).
  revert H. apply (map_inj_in (fun x => x < 256)); auto. apply byte_bits_inj.
Qed.

Lemma N_of_bits_inj a b : length a = length b -> N_of_bits a = N_of_bits b -> a = b.
Proof.
  intros L H. apply (nth_ext_le _ _ false); auto. intros i Hi.
  pose proof (f_equal (fun v => N.testbit v (N.of_nat i)) H) as E. cbn beta in E.
  now rewrite !tb_N_of_bits, Nat2N.id in E.
Qed.

Lemma bytes_of_bits_inj n a b : length a = (n * 8)%nat -> length b = (n * 8)%nat -> bytes_of_bits a = bytes_of_bits b -> a = b.
Proof.
  intros La Lb H. unfold bytes_of_bits in H.
  destruct (chunks_length_mult 8 n a) as [_ Ka]; auto; [lia|]. destruct (chunks_length_mult 8 n b) as [_ Kb]; auto; [lia|].
  apply (map_inj_in (fun l => length l = 8%nat)) in H; auto.
  - apply chunks_inj in H; [exact H|lia].
  - intros x y Hx Hy. apply N_of_bits_inj. congruence.
Qed.

Lemma keccak_p_inj r s t : bytes s -> bytes t -> length s = 50%nat -> length t = 50%nat ->
  keccak_p r s = keccak_p r t -> s = t.
Proof.
  intros Hs Ht Ls Lt H. unfold keccak_p in H.
  assert (Bs : length (bits_of_bytes s) = 400%nat) by (rewrite bits_of_bytes_length; lia).
  assert (Bt : length (bits_of_bytes t) = 400%nat) by (rewrite bits_of_bytes_length; lia).
  apply (bytes_of_bits_inj 50) in H; try (now apply keccak_p_bits_length).
  apply keccak_p_bits_inj in H; auto. now apply bits_of_bytes_inj.
Qed.

(* ---------- injective on a finite set, hence onto ---------- *)

Lemma inj_surj n (f : list N -> list N) :
  (forall s, bytes s -> length s = n -> bytes (f s) /\ length (f s) = n) ->
  (forall s t, bytes s -> bytes t -> length s = n -> length t = n -> f s = f t -> s = t) ->
  forall t, bytes t -> length t = n -> exists s, bytes s /\ length s = n /\ f s = t.
Proof.
  intros Hf Hi t Ht Lt.
  set (k := N.to_nat (2 ^ (8 * N.of_nat n))).
  set (de := fun i : nat => word_be n (N.of_nat i)).
  set (g := fun i : nat => N.to_nat (be_word (f (de i)))).
  assert (Dk : forall i, bytes (de i) /\ length (de i) = n) by (intros; split; [apply bytes_word_be | apply word_be_length]).
  assert (Lk : forall s, bytes s -> length s = n -> (N.to_nat (be_word s) < k)%nat).
  { intros s Hs Ls. pose proof (be_word_lt s Hs). rewrite Ls in *. unfold k. lia. }
  assert (B : bFun k g).
  { intros i _. apply Lk; apply Hf; apply Dk. }
  assert (I : bInjective k g).
  { intros i j Hik Hjk E. unfold g in E. apply N2Nat.inj in E.
    destruct (Dk i) as [? ?], (Dk j) as [? ?], (Hf (de i)) as [? ?], (Hf (de j)) as [? ?]; auto.
    apply (be_word_inj n) in E; auto. apply Hi in E; auto. unfold de in E.
    apply (f_equal be_word) in E. unfold k in Hik, Hjk. rewrite !be_word_word_be in E by lia. lia. }
  apply (bInjective_bSurjective B) in I.
  destruct (I (N.to_nat (be_word t)) (Lk t Ht Lt)) as (i & Hk & E).
  exists (de i). destruct (Dk i) as [D1 D2]. destruct (Hf (de i) D1 D2) as [F1 F2]. repeat split; auto.
  unfold g in E. apply N2Nat.inj in E. now apply (be_word_inj n) in E.
Qed.
