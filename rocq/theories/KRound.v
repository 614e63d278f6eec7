(* A checker for straight-line programs that compute one Keccak-p[400] round somewhere in a larger set of variables
   (registers, scratch copies, vector lanes). Definitions and proofs; models no code of /repo. *)
From Verif Require Import Base Prog Poly SpecPerm Words RefPerm KeccakProof.
Open Scope N_scope.

(* n variables from number o on. *)
Definition sub {A} (o n : nat) (l : list A) : list A := firstn n (skipn o l).

(* Words r fit the widths ws, one for one. *)
Definition fits (ws : list nat) (r : env) : Prop :=
  length r = length ws /\ forall j, (j < length ws)%nat -> nth j r 0 < 2 ^ N.of_nat (nth j ws 0%nat).

(* XOR of the first bits of A with those of c. *)
Fixpoint xorhd {B} (bx : B -> B -> B) (A c : list B) : list B :=
  match A, c with
  | a :: A', b :: c' => bx a b :: xorhd bx A' c'
  | _, _ => A
  end.

Fixpoint lens_ok (o : senv) (ws : list nat) : bool :=
  match o, ws with
  | [], [] => true
  | s :: o', w :: ws' => (length s <=? w)%nat && lens_ok o' ws'
  | _, _ => false
  end.

(* After p, variables out..out+24 hold the round function without iota of variables inp..inp+24, XORed with variable rc
   in lane 0; all variables still fit. *)
Definition rcheck (ws : list nat) (p : prog) (inp out rc : nat) : bool :=
  let e := sinit ws 0 in
  let o := srun p e in
  forallb (fun w => w <=? 64)%nat ws && (rc <? length ws)%nat && (inp + 25 <=? length ws)%nat && (out + 25 <=? length ws)%nat &&
  forallb (fun w => w <=? 16)%nat (sub inp 25 ws) && forallb (fun w => w <=? 16)%nat (sub out 25 ws) && (nth rc ws 0 <=? 16)%nat &&
  progok p && lens_ok o ws &&
  lpeqb (sbits (sub out 25 o)) (xorhd pxor (prelude [] pone pxor pmul (sbits (sub inp 25 e))) (spad 16 (nth rc e []))).
(* p and q leave the same values in the given variables. *)
Definition same_vars (ws : list nat) (p q : prog) (xs : list nat) : bool := check ws 0 p q (map (fun x => (x, x)) xs).
(* p leaves everything fitting. *)
Definition wcheck (ws : list nat) (p : prog) : bool :=
  forallb (fun w => w <=? 64)%nat ws && progok p && lens_ok (srun p (sinit ws 0)) ws.

Lemma srun_length p e : length (srun p e) = length e.
Proof.
  unfold srun. revert e. induction p as [|[x a] p IH]; intros e; cbn [fold_left]; auto. rewrite IH. apply upd_nth_length.
Qed.

Lemma lens_ok_nth o ws : lens_ok o ws = true -> length o = length ws /\ forall j, (length (nth j o []) <= nth j ws 0)%nat.
Proof.
  revert ws; induction o as [|s o IH]; intros [|w ws]; cbn [lens_ok]; try discriminate.
  - intros _. split; auto. intros [|j]; auto.
  - rewrite andb_true_iff, Nat.leb_le. intros [H1 H2]. apply IH in H2 as [H2 H3]. split; [cbn [length]; lia|].
    intros [|j]; cbn [nth]; auto.
Qed.

Lemma srel_lt r s v w : srel r s v -> (length s <= w)%nat -> v < 2 ^ N.of_nat w.
Proof.
  intros H L. apply lt_pow2_tb. intros i Hi. rewrite (H i). unfold sbit. rewrite nth_overflow by lia. reflexivity.
Qed.

Lemma run_rel ws p r : forallb (fun w => w <=? 64)%nat ws = true -> progok p = true -> fits ws r ->
  length (srun p (sinit ws 0)) = length ws /\ length (run p r) = length ws /\
  forall x, srel (vinput r) (nth x (srun p (sinit ws 0)) []) (nth x (run p r) 0).
Proof.
  intros Hw Hp [L F]. destruct (sinit_spec ws 0 r L Hw F) as [Hl Hr]. unfold ninit in *. rewrite app_nil_r in *.
  split; [rewrite srun_length; lia|]. split; [now rewrite run_length|].
  apply srun_sound; auto.
Qed.

Lemma wcheck_sound ws p r : wcheck ws p = true -> fits ws r -> fits ws (run p r).
Proof.
  unfold wcheck. rewrite !andb_true_iff. intros [[Hw Hp] Hl] F.
  destruct (run_rel ws p r Hw Hp F) as (L1 & L2 & R). apply lens_ok_nth in Hl as [_ Hl]. split; auto.
  intros j Hj. apply (srel_lt _ _ _ _ (R j)), Hl.
Qed.

Lemma same_vars_sound ws p q xs r : same_vars ws p q xs = true -> fits ws r ->
  forall x, In x xs -> nth x (run p r) 0 = nth x (run q r) 0.
Proof.
  intros H [L F] x Hx. pose proof (check_sound ws 0 p q _ r H L F (x, x)) as E. unfold ninit in E. rewrite app_nil_r in E.
  apply E. apply in_map_iff. exists x. auto.
Qed.

Lemma sub_rel rho (s : senv) (r : env) o n : length s = length r ->
  (forall x, srel rho (nth x s []) (nth x r 0)) -> Forall2 (srel rho) (sub o n s) (sub o n r).
Proof.
  intros L H. unfold sub.
  assert (G : forall (a : senv) (b : env), length a = length b -> (forall x, srel rho (nth x a []) (nth x b 0)) ->
    forall n, Forall2 (srel rho) (firstn n a) (firstn n b)).
  { clear. induction a as [|u a IH]; intros [|v b] Hlen Hx n; try discriminate; destruct n; cbn [firstn]; constructor.
    - exact (Hx O).
    - apply IH; [cbn [length] in Hlen; lia|]. intros x. exact (Hx (S x)). }
  apply G; [rewrite !skipn_length; lia|]. intros x. rewrite !nth_skipn_add. apply H.
Qed.

Lemma xorhd_hom r A c : map (peval r) (xorhd pxor A c) = xorhd xorb (map (peval r) A) (map (peval r) c).
Proof.
  revert c; induction A as [|a A IH]; intros [|b c]; cbn [xorhd map]; auto. now rewrite peval_pxor, IH.
Qed.

Lemma sub_nth {A} (l : list A) o n i d : (i < n)%nat -> nth i (sub o n l) d = nth (o + i) l d.
Proof. intros H. unfold sub. now rewrite nth_firstn_lt, nth_skipn_add. Qed.
Lemma sub_length {A} (l : list A) o n : (o + n <= length l)%nat -> length (sub o n l) = n.
Proof. intros H. unfold sub. rewrite firstn_length, skipn_length. lia. Qed.

Lemma fits_words25 ws r o : fits ws r -> (o + 25 <= length ws)%nat ->
  forallb (fun w => w <=? 16)%nat (sub o 25 ws) = true -> words25 (sub o 25 r).
Proof.
  intros [L F] Ho Hw. split; [apply sub_length; lia|]. apply Forall_forall. intros v Hv.
  apply (In_nth _ _ 0) in Hv as (i & Hi & <-). rewrite sub_length in Hi by lia. rewrite sub_nth by auto.
  rewrite forallb_forall in Hw. specialize (Hw (nth i (sub o 25 ws) 0%nat)).
  rewrite sub_nth, Nat.leb_le in Hw by auto.
  apply N.lt_le_trans with (2 ^ N.of_nat (nth (o + i) ws 0%nat)); [apply F; lia|].
  change 16 with (N.of_nat 16). apply N.pow_le_mono_r; [lia|]. 
  enough (nth (o + i) ws 0 <= 16)%nat by lia. apply Hw.
  rewrite <- (sub_nth ws o 25 i) by auto. apply nth_In. rewrite sub_length; lia.
Qed.

Lemma word_bits r s v : srel r s v -> map (peval r) (spad 16 s) = map (bit v) (seq 0 16).
Proof.
  intros H. pose proof (sbits_wbits r [s] [v] ltac:(repeat constructor; exact H)) as E.
  unfold sbits, wbits in E. cbn [map concat] in E. now rewrite !app_nil_r in E.
Qed.

Lemma rcheck_sound ws p inp out rc r : rcheck ws p inp out rc = true -> fits ws r ->
  fits ws (run p r) /\ words25 (sub inp 25 r) /\ words25 (sub out 25 (run p r)) /\
  wbits (sub out 25 (run p r)) =
    xorhd xorb (prelude false true xorb andb (wbits (sub inp 25 r))) (map (bit (nth rc r 0)) (seq 0 16)).
Proof.
  unfold rcheck. rewrite !andb_true_iff.
  intros [[[[[[[[[Hw Hrc] Hi] Ho] Wi] Wo] Wr] Hp] Hl] He] F.
  apply Nat.ltb_lt in Hrc. apply Nat.leb_le in Hi, Ho.
  assert (F' : fits ws (run p r)) by (apply wcheck_sound; auto; unfold wcheck; now rewrite Hw, Hp, Hl).
  destruct (run_rel ws p r Hw Hp F) as (L1 & L2 & R).
  split; [exact F'|]. split; [exact (fits_words25 ws r inp F Hi Wi)|]. split; [exact (fits_words25 ws _ out F' Ho Wo)|].
  destruct F as [L F]. destruct (sinit_spec ws 0 r L Hw F) as [Hl0 R0]. unfold ninit in Hl0, R0. rewrite app_nil_r in Hl0, R0.
  assert (S1 := sub_rel (vinput r) _ _ out 25 (eq_trans L1 (eq_sym L2)) R).
  assert (S0 := sub_rel (vinput r) _ _ inp 25 Hl0 R0).
  rewrite <- (sbits_wbits _ _ _ S1). apply lpeqb_eq in He. rewrite He, xorhd_hom, prelude_hom.
  rewrite (sbits_wbits _ _ _ S0). f_equal. apply word_bits, R0.
Qed.

(* iota is the XOR of a constant into lane 0. *)
Definition sym400 : list poly := map (fun i => pvar (Pos.of_succ_nat i)) (seq 0 400).
Definition kbits (c : N) : list poly := map (fun j => if bit c j then pone else []) (seq 0 16).
Lemma iota_const_check : forallb (fun i =>
  lpeqb (k_iota poly [] pone pxor i sym400) (xorhd pxor sym400 (kbits (nth i KeccakRoundConstants 0)))) (seq 0 20) = true.
Proof. vm_compute. reflexivity. Qed.
Definition bval (l : list bool) : val := fun x => nth (Nat.pred (Pos.to_nat x)) l false.
Lemma sym400_val l : length l = 400%nat -> map (peval (bval l)) sym400 = l.
Proof.
  intros L. unfold sym400. rewrite map_map. apply (nth_ext_le _ _ false); [now rewrite map_length, seq_length|].
  intros i Hi. rewrite map_length, seq_length in Hi. rewrite (nth_map_lt _ _ _ 0%nat) by now rewrite seq_length.
  rewrite seq_nth by auto. rewrite peval_pvar. unfold bval. f_equal. lia.
Qed.
Lemma iota_const i l : (i < 20)%nat -> length l = 400%nat ->
  k_iota bool false true xorb i l = xorhd xorb l (map (bit (nth i KeccakRoundConstants 0)) (seq 0 16)).
Proof.
  intros Hi L. pose proof iota_const_check as H. rewrite forallb_forall in H. specialize (H i). rewrite in_seq in H.
  apply lpeqb_eq in H; [|lia]. apply (f_equal (map (peval (bval l)))) in H.
  rewrite (iota_hom _ _ (peval (bval l)) [] pone pxor false true xorb) in H by auto using peval_pxor.
  rewrite xorhd_hom, sym400_val in H by auto. rewrite H. f_equal. unfold kbits. rewrite map_map. apply map_ext. intros j.
  now destruct (bit _ j).
Qed.

Lemma prelude_length A : length (prelude false true xorb andb A) = 400%nat.
Proof. reflexivity. Qed.

(* One round. *)
Theorem round_ok ws p inp out rc i r : rcheck ws p inp out rc = true -> fits ws r -> (i < 20)%nat ->
  nth rc r 0 = nth i KeccakRoundConstants 0 ->
  fits ws (run p r) /\ words25 (sub inp 25 r) /\ words25 (sub out 25 (run p r)) /\
  wbits (sub out 25 (run p r)) = k_round false true xorb andb i (wbits (sub inp 25 r)).
Proof.
  intros H F Hi Hrc. destruct (rcheck_sound ws p inp out rc r H F) as (F' & W & W' & E).
  split; [exact F'|]. split; [exact W|]. split; [exact W'|]. rewrite E, Hrc. rewrite <- iota_const by auto using prelude_length.
  reflexivity.
Qed.

(* Setting a variable that a program does not mention commutes with the program. *)
Fixpoint fresh (v : nat) (e : exp) : bool :=
  match e with
  | V x => negb (x =? v)%nat
  | K _ => true
  | Xor a b | And a b | Or a b => fresh v a && fresh v b
  | Not _ a | Shl _ a _ | Shr a _ | Ror _ a _ | Trunc _ a => fresh v a
  end.
Definition pfresh (v : nat) (p : prog) : bool := forallb (fun s => match s with Asg x e => negb (x =? v)%nat && fresh v e end) p.

Lemma eval_fresh v e r c : fresh v e = true -> eval (upd_nth r v c) e = eval r e.
Proof.
  induction e; cbn [fresh eval]; rewrite ?andb_true_iff; intros H; rewrite ?IHe, ?IHe1, ?IHe2 by tauto; auto.
  rewrite nth_upd_nth. destruct (_ =? v)%nat; [discriminate|reflexivity].
Qed.

Lemma upd_comm {A} (l : list A) a b x y : a <> b -> upd_nth (upd_nth l a x) b y = upd_nth (upd_nth l b y) a x.
Proof. revert a b; induction l as [|h l IH]; intros [|a] [|b] H; cbn [upd_nth]; auto; [congruence|]. f_equal. apply IH. congruence. Qed.

Lemma run_fresh v p r c : pfresh v p = true -> run p (upd_nth r v c) = upd_nth (run p r) v c.
Proof.
  unfold pfresh, run. revert r. induction p as [|[x e] p IH]; intros r H; auto. cbn [forallb fold_left] in *.
  rewrite !andb_true_iff in H. destruct H as [[Hx He] Hp]. unfold step at 2 4. rewrite eval_fresh by auto.
  rewrite upd_comm by (intros ->; rewrite Nat.eqb_refl in Hx; discriminate). apply IH. exact Hp.
Qed.

Lemma fits_upd ws r v c : fits ws r -> (c < 2 ^ N.of_nat (nth v ws 0%nat)) -> fits ws (upd_nth r v c).
Proof.
  intros [L F] Hc. split; [now rewrite upd_nth_length|]. intros j Hj. rewrite nth_upd_nth.
  destruct (Nat.eqb_spec j v) as [->|Hn]; auto. destruct (Nat.ltb_spec v (length r)); auto; lia.
Qed.

Lemma same_all ws p q r : same_vars ws p q (seq 0 (length ws)) = true -> fits ws r -> run p r = run q r.
Proof.
  intros H F. apply (nth_ext _ _ 0 0); [now rewrite !run_length|]. intros n Hn. rewrite run_length in Hn.
  apply (same_vars_sound ws p q (seq 0 (length ws)) r H F). apply in_seq. destruct F. lia.
Qed.

(* The permutation on bytes from the permutation on bits of the lanes. *)
Lemma lanes_bytes n S ws : (n <= 20)%nat -> bytes S -> length S = 50%nat ->
  wbits ws = keccak_p_bits false true xorb andb n (wbits (map le_word (chunks 2 S))) ->
  concat (map (word_le 2) ws) = keccak_p n S.
Proof.
  intros Hn Hb Hl E. unfold keccak_p. rewrite bits_of_bytes_wbits by (auto; now rewrite Hl). now rewrite <- E, bytes_of_bits_wbits.
Qed.
