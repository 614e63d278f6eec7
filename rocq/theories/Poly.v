(* Verified symbolic execution of straight-line word programs (Prog.v): every bit of every
   variable is an algebraic normal form over input bits. Proof tool only; models no code of /repo. *)
From Verif Require Import Base Prog.
Open Scope N_scope.

Definition mono := list positive.         (* product of input bits, sorted *)
Definition poly := list mono.             (* XOR of monomials, sorted *)

Fixpoint mcmp (a b : mono) : comparison :=
  match a, b with
  | [], [] => Eq
  | [], _ => Lt
  | _, [] => Gt
  | x :: a', y :: b' => match Pos.compare x y with Eq => mcmp a' b' | c => c end
  end.

Lemma mcmp_eq a b : mcmp a b = Eq -> a = b.
Proof.
  revert b; induction a as [|x a IH]; intros [|y b]; simpl; try discriminate; auto.
  destruct (Pos.compare_spec x y) as [->| |]; try discriminate. intros H. f_equal; auto.
Qed.

Fixpoint mmul (a : mono) : mono -> mono :=
  fix mm (b : mono) : mono :=
  match a, b with
  | [], _ => b
  | _, [] => a
  | x :: a', y :: b' =>
      match Pos.compare x y with
      | Eq => x :: mmul a' b'
      | Lt => x :: mmul a' b
      | Gt => y :: mm b'
      end
  end.

Fixpoint pxor (p : poly) : poly -> poly :=
  fix px (q : poly) : poly :=
  match p, q with
  | [], _ => q
  | _, [] => p
  | x :: p', y :: q' =>
      match mcmp x y with
      | Eq => pxor p' q'
      | Lt => x :: pxor p' q
      | Gt => y :: px q'
      end
  end.

Fixpoint pins (m : mono) (q : poly) : poly :=
  match q with
  | [] => [m]
  | y :: q' => match mcmp m y with Eq => q' | Lt => m :: q | Gt => y :: pins m q' end
  end.

Definition pmul (p q : poly) : poly :=
  fold_left (fun acc m => fold_left (fun acc' n => pins (mmul m n) acc') q acc) p [].

Definition pone : poly := [[]].
Definition pvar (x : positive) : poly := [[x]].
Definition pnot (p : poly) : poly := pxor pone p.
Definition por (p q : poly) : poly := pxor (pxor p q) (pmul p q).

Definition val := positive -> bool.
Definition meval (r : val) (m : mono) : bool := forallb r m.
Fixpoint peval (r : val) (p : poly) : bool :=
  match p with [] => false | m :: p' => xorb (meval r m) (peval r p') end.

Lemma meval_mmul r a b : meval r (mmul a b) = meval r a && meval r b.
Proof.
  revert b; induction a as [|x a IHa].
  - intros [|y b]; reflexivity.
  - induction b as [|y b IHb].
    + simpl. now rewrite andb_true_r.
    + change (mmul (x :: a) (y :: b)) with
        (match Pos.compare x y with
         | Eq => x :: mmul a b | Lt => x :: mmul a (y :: b) | Gt => y :: mmul (x :: a) b end).
      destruct (Pos.compare_spec x y) as [->| |].
      * simpl. rewrite IHa. destruct (r y), (meval r a), (meval r b); reflexivity.
      * simpl. rewrite IHa. simpl. destruct (r x), (r y), (meval r a); reflexivity.
      * cbn [meval forallb]. fold (meval r (mmul (x :: a) b)). rewrite IHb.
        cbn [meval forallb]. fold (meval r a) (meval r b).
        destruct (r x), (r y), (meval r a); reflexivity.
Qed.

Lemma peval_pxor r p q : peval r (pxor p q) = xorb (peval r p) (peval r q).
Proof.
  revert q; induction p as [|x p IHp].
  - intros [|y q]; simpl; auto. now destruct (xorb _ _).
  - induction q as [|y q IHq].
    + simpl. now rewrite xorb_false_r.
    + change (pxor (x :: p) (y :: q)) with
        (match mcmp x y with
         | Eq => pxor p q | Lt => x :: pxor p (y :: q) | Gt => y :: pxor (x :: p) q end).
      destruct (mcmp x y) eqn:E.
      * apply mcmp_eq in E. subst y. rewrite IHp. simpl.
        destruct (meval r x), (peval r p), (peval r q); reflexivity.
      * simpl. rewrite IHp. simpl. now rewrite xorb_assoc.
      * cbn [peval]. rewrite IHq. cbn [peval].
        destruct (meval r x), (meval r y), (peval r p), (peval r q); reflexivity.
Qed.

Lemma peval_pins r m q : peval r (pins m q) = xorb (meval r m) (peval r q).
Proof.
  induction q as [|y q IH]; simpl; auto.
  destruct (mcmp m y) eqn:E; simpl; auto.
  - apply mcmp_eq in E. subst y. destruct (meval r m), (peval r q); reflexivity.
  - rewrite IH. destruct (meval r m), (meval r y), (peval r q); reflexivity.
Qed.

Lemma peval_pmul r p q : peval r (pmul p q) = peval r p && peval r q.
Proof.
  unfold pmul.
  assert (Hin : forall m q acc,
    peval r (fold_left (fun acc' n => pins (mmul m n) acc') q acc)
    = xorb (peval r acc) (meval r m && peval r q)).
  { clear. intros m q; induction q as [|n q IH]; intros acc; simpl.
    - now rewrite andb_false_r, xorb_false_r.
    - rewrite IH, peval_pins, meval_mmul.
      destruct (peval r acc), (meval r m), (meval r n), (peval r q); reflexivity. }
  assert (H : forall p acc,
    peval r (fold_left (fun acc m => fold_left (fun acc' n => pins (mmul m n) acc') q acc) p acc)
    = xorb (peval r acc) (peval r p && peval r q)).
  { clear p. intros p; induction p as [|m p IH]; intros acc; simpl.
    - now rewrite xorb_false_r.
    - rewrite IH, Hin.
      destruct (peval r acc), (meval r m), (peval r p), (peval r q); reflexivity. }
  rewrite H. apply xorb_false_l.
Qed.

Lemma peval_pone r : peval r pone = true.
Proof. reflexivity. Qed.

Lemma peval_pvar r x : peval r (pvar x) = r x.
Proof. simpl. destruct (r x); reflexivity. Qed.

Lemma peval_pnot r p : peval r (pnot p) = negb (peval r p).
Proof. unfold pnot. rewrite peval_pxor. reflexivity. Qed.

Lemma peval_por r p q : peval r (por p q) = peval r p || peval r q.
Proof.
  unfold por. rewrite !peval_pxor, peval_pmul. destruct (peval r p), (peval r q); reflexivity.
Qed.

(* Symbolic words: bits, least significant first; missing bits are 0. *)
Definition sword := list poly.
Definition sbit (w : sword) (i : nat) : poly := nth i w [].

Fixpoint szip (f : poly -> poly -> poly) (a b : sword) : sword :=
  match a, b with
  | [], _ => b
  | _, [] => a
  | x :: a', y :: b' => f x y :: szip f a' b'
  end.

Fixpoint szips (f : poly -> poly -> poly) (a b : sword) : sword :=
  match a, b with
  | x :: a', y :: b' => f x y :: szips f a' b'
  | _, _ => []
  end.

Definition spad (w : nat) (a : sword) : sword := firstn w a ++ repeat [] (w - length a).

Fixpoint sconst (n : nat) (c : N) : sword :=
  match n with
  | O => []
  | S n' => (if N.odd c then pone else []) :: sconst n' (N.div2 c)
  end.

Definition senv := list sword.

Fixpoint seval (r : senv) (e : exp) : sword :=
  match e with
  | V x => nth x r []
  | K c => sconst (N.to_nat (N.size c)) c
  | Xor a b => szip pxor (seval r a) (seval r b)
  | And a b => szips pmul (seval r a) (seval r b)
  | Or a b => szip por (seval r a) (seval r b)
  | Not w a => map pnot (spad (N.to_nat w) (seval r a))
  | Shl w a k => firstn (N.to_nat w) (repeat [] (N.to_nat k) ++ seval r a)
  | Shr a k => skipn (N.to_nat k) (seval r a)
  | Ror w a k => let t := spad (N.to_nat w) (seval r a) in
                 if (k <? w)%N then skipn (N.to_nat k) t ++ firstn (N.to_nat k) t else []
  | Trunc w a => firstn (N.to_nat w) (seval r a)
  end.

Definition sstep (r : senv) (s : stmt) : senv :=
  match s with Asg x e => upd_nth r x (seval r e) end.
Definition srun (p : prog) (r : senv) : senv := fold_left sstep p r.

(* Expressions whose symbolic value is exact: rotations by less than the width. *)
Fixpoint rorok (e : exp) : bool :=
  match e with
  | V _ | K _ => true
  | Xor a b | And a b | Or a b => rorok a && rorok b
  | Not _ a | Shl _ a _ | Shr a _ | Trunc _ a => rorok a
  | Ror w a k => (k <? w) && rorok a
  end.
Definition progok (p : prog) : bool := forallb (fun s => match s with Asg _ e => rorok e end) p.

Definition srel (r : val) (w : sword) (v : N) : Prop :=
  forall i, N.testbit v i = peval r (sbit w (N.to_nat i)).

Lemma sbit_szip f (Hl : forall r p, peval r (f [] p) = peval r p)
  (Hr : forall r p, peval r (f p []) = peval r p) r a b i :
  peval r (sbit (szip f a b) i) = peval r (f (sbit a i) (sbit b i)).
Proof.
  unfold sbit. revert b i; induction a as [|x a IH]; intros b i.
  - simpl. destruct i; rewrite Hl; reflexivity.
  - destruct b as [|y b].
    + simpl. destruct i; rewrite Hr; reflexivity.
    + destruct i as [|i]; simpl; auto.
Qed.

Lemma sbit_szips f (Hl : forall r p, peval r (f [] p) = false)
  (Hr : forall r p, peval r (f p []) = false) r a b i :
  peval r (sbit (szips f a b) i) = peval r (f (sbit a i) (sbit b i)).
Proof.
  unfold sbit. revert b i; induction a as [|x a IH]; intros b i.
  - simpl. destruct i; rewrite Hl; reflexivity.
  - destruct b as [|y b].
    + simpl. destruct i; rewrite Hr; reflexivity.
    + destruct i as [|i]; simpl; auto.
Qed.

Lemma sbit_firstn n a i : sbit (firstn n a) i = if (i <? n)%nat then sbit a i else [].
Proof.
  unfold sbit. revert n i; induction a as [|x a IH]; intros [|n] [|i]; cbn [firstn nth]; auto.
  - destruct (S i <? S n)%nat; auto.
  - rewrite IH. reflexivity.
Qed.

Lemma sbit_skipn n a i : sbit (skipn n a) i = sbit a (n + i).
Proof.
  unfold sbit. revert a; induction n as [|n IH]; intros a; simpl; auto.
  destruct a as [|x a]; simpl; auto. destruct i; auto.
Qed.

Lemma sbit_repeat n i : sbit (repeat [] n) i = [].
Proof. unfold sbit. revert i; induction n as [|n IH]; intros [|i]; simpl; auto. Qed.

Lemma sbit_app a b i : sbit (a ++ b) i = if (i <? length a)%nat then sbit a i else sbit b (i - length a).
Proof.
  unfold sbit. destruct (Nat.ltb_spec i (length a)).
  - apply app_nth1; auto.
  - apply app_nth2; auto.
Qed.

Lemma spad_length w a : length (spad w a) = w.
Proof. unfold spad. rewrite app_length, firstn_length, repeat_length. lia. Qed.

Lemma sbit_spad w a i : sbit (spad w a) i = if (i <? w)%nat then sbit a i else [].
Proof.
  unfold spad. rewrite sbit_app, firstn_length, sbit_repeat, sbit_firstn.
  destruct (Nat.ltb_spec i w); destruct (Nat.ltb_spec i (Nat.min w (length a))); auto; try lia.
  unfold sbit. rewrite nth_overflow by lia. reflexivity.
Qed.

Lemma sbit_map_pnot r w a i : (length a = w)%nat ->
  peval r (sbit (map pnot a) i) = (i <? w)%nat && negb (peval r (sbit a i)).
Proof.
  intros <-. unfold sbit. revert i; induction a as [|x a IH]; intros [|i]; simpl; auto.
  - apply peval_pnot.
  - apply IH.
Qed.

Lemma sconst_spec r n c i :
  peval r (sbit (sconst n c) i) = (i <? n)%nat && N.testbit c (N.of_nat i).
Proof.
  unfold sbit. revert c i; induction n as [|n IH]; intros c [|i]; simpl; auto.
  - rewrite <- N.bit0_odd. change (N.of_nat 0) with 0. destruct (N.testbit c 0); reflexivity.
  - rewrite IH. f_equal. rewrite N.div2_spec, tb_shiftr. f_equal. lia.
Qed.

Lemma sbit_sxor r a b i : peval r (sbit (szip pxor a b) i) = xorb (peval r (sbit a i)) (peval r (sbit b i)).
Proof.
  rewrite sbit_szip, peval_pxor; auto; intros; rewrite peval_pxor; simpl.
  - apply xorb_false_l.
  - apply xorb_false_r.
Qed.
Lemma sbit_sor r a b i : peval r (sbit (szip por a b) i) = peval r (sbit a i) || peval r (sbit b i).
Proof.
  rewrite sbit_szip, peval_por; auto; intros; rewrite peval_por; simpl; auto. apply orb_false_r.
Qed.
Lemma sbit_sand r a b i : peval r (sbit (szips pmul a b) i) = peval r (sbit a i) && peval r (sbit b i).
Proof.
  rewrite sbit_szips, peval_pmul; auto; intros; rewrite peval_pmul; simpl; auto. apply andb_false_r.
Qed.

Lemma seval_sound r sr rr e :
  rorok e = true -> (forall x, srel r (nth x sr []) (nth x rr 0)) -> srel r (seval sr e) (eval rr e).
Proof.
  intros Hok Henv. induction e; simpl in Hok |- *; repeat rewrite ?andb_true_iff in Hok;
    try match type of Hok with _ /\ _ => destruct Hok as [Hok1 Hok2] end; intros i.
  - apply Henv.
  - rewrite sconst_spec, N2Nat.id.
    destruct (Nat.ltb_spec (N.to_nat i) (N.to_nat (N.size c))) as [Hi|Hi]; simpl; auto.
    apply (tb_high _ (N.size c)); [apply N.size_gt | lia].
  - rewrite N.lxor_spec, sbit_sxor, IHe1, IHe2; auto.
  - rewrite N.land_spec, sbit_sand, IHe1, IHe2; auto.
  - rewrite N.lor_spec, sbit_sor, IHe1, IHe2; auto.
  - rewrite tb_wnot, (sbit_map_pnot _ (N.to_nat w)) by apply spad_length.
    rewrite sbit_spad, IHe by auto.
    destruct (N.ltb_spec i w), (Nat.ltb_spec (N.to_nat i) (N.to_nat w)); auto; lia.
  - rewrite tb_wshl, sbit_firstn, sbit_app, repeat_length, sbit_repeat.
    destruct (N.ltb_spec i w), (Nat.ltb_spec (N.to_nat i) (N.to_nat w)); try lia; auto.
    destruct (N.leb_spec k i), (Nat.ltb_spec (N.to_nat i) (N.to_nat k)); try lia; auto.
    simpl. rewrite IHe by auto. f_equal. f_equal. lia.
  - rewrite tb_shiftr, sbit_skipn, IHe by auto. f_equal. f_equal. lia.
  - rewrite Hok1. apply N.ltb_lt in Hok1. rewrite tb_wror by auto.
    rewrite sbit_app, skipn_length, spad_length, sbit_skipn, sbit_firstn, !sbit_spad, IHe by auto.
    destruct (N.ltb_spec i w) as [Hi|Hi]; simpl.
    + destruct (Nat.ltb_spec (N.to_nat i) (N.to_nat w - N.to_nat k)) as [H1|H1].
      * replace (N.to_nat k + N.to_nat i <? N.to_nat w)%nat with true by (symmetry; apply Nat.ltb_lt; lia).
        f_equal. f_equal. rewrite N.mod_small by lia. lia.
      * replace (N.to_nat i - (N.to_nat w - N.to_nat k) <? N.to_nat k)%nat with true
          by (symmetry; apply Nat.ltb_lt; lia).
        replace (N.to_nat i - (N.to_nat w - N.to_nat k) <? N.to_nat w)%nat with true
          by (symmetry; apply Nat.ltb_lt; lia).
        f_equal. f_equal.
        assert (E : (i + k) mod w = i + k - w) by (symmetry; apply N.mod_unique with 1; lia).
        rewrite E. lia.
    + destruct (Nat.ltb_spec (N.to_nat i) (N.to_nat w - N.to_nat k)) as [H1|H1]; [lia|].
      destruct (Nat.ltb_spec (N.to_nat i - (N.to_nat w - N.to_nat k)) (N.to_nat k)); [lia|]. reflexivity.
  - rewrite tb_wtrunc, sbit_firstn, IHe by auto.
    destruct (N.ltb_spec i w), (Nat.ltb_spec (N.to_nat i) (N.to_nat w)); auto; lia.
Qed.

Lemma srun_sound r p : forall sr rr, progok p = true -> length sr = length rr ->
  (forall x, srel r (nth x sr []) (nth x rr 0)) ->
  forall x, srel r (nth x (srun p sr) []) (nth x (run p rr) 0).
Proof.
  induction p as [|[y e] p IH]; intros sr rr Hok Hlen Henv x; simpl in *; auto.
  apply andb_true_iff in Hok. destruct Hok as [Hok1 Hok2].
  apply IH; auto.
  - now rewrite !upd_nth_length.
  - intros z. rewrite !nth_upd_nth, Hlen. destruct (z =? y)%nat; auto.
    destruct (y <? length rr)%nat; [now apply seval_sound|].
    intros i. rewrite N.bits_0. unfold sbit. now destruct (N.to_nat i).
Qed.

(* Standard symbolic inputs: bit i of input word number j is the variable 64*j+i (+1). *)
Definition ivar (j i : nat) : positive := N.succ_pos (64 * N.of_nat j + N.of_nat i).
Definition sinput (w j : nat) : sword := map (fun i => pvar (ivar j i)) (seq 0 w).
Definition vinput (inp : list N) : val :=
  fun x => let n := (Pos.to_nat x - 1)%nat in
           N.testbit (nth (n / 64)%nat inp 0) (N.of_nat (n mod 64)%nat).

Lemma vinput_ivar inp j i : (i < 64)%nat -> vinput inp (ivar j i) = N.testbit (nth j inp 0) (N.of_nat i).
Proof.
  intros Hi. unfold vinput.
  replace (ivar j i) with (Pos.of_succ_nat (64 * j + i)).
  2:{ unfold ivar. enough (N.pos (Pos.of_succ_nat (64 * j + i)) = N.pos (N.succ_pos (64 * N.of_nat j + N.of_nat i))) by congruence.
      rewrite N.succ_pos_spec. lia. }
  rewrite SuccNat2Pos.id_succ.
  replace (S (64 * j + i) - 1)%nat with (i + j * 64)%nat by lia.
  rewrite Nat.div_add, Nat.mod_add by lia. rewrite Nat.div_small, Nat.mod_small by lia. reflexivity.
Qed.

Lemma sinput_spec inp w j : (w <= 64)%nat -> nth j inp 0 < 2 ^ N.of_nat w ->
  srel (vinput inp) (sinput w j) (nth j inp 0).
Proof.
  intros Hw Hlt i. unfold sinput, sbit.
  destruct (Nat.ltb_spec (N.to_nat i) w) as [Hi|Hi].
  - rewrite (nth_map_lt _ _ _ O) by (rewrite seq_length; auto). rewrite seq_nth by auto. rewrite Nat.add_0_l.
    rewrite peval_pvar, vinput_ivar by lia. now rewrite N2Nat.id.
  - rewrite (nth_overflow (map _ _)) by (rewrite map_length, seq_length; auto). simpl.
    apply (tb_high _ (N.of_nat w)); auto. lia.
Qed.

Definition sconstw (c : N) : sword := sconst (N.to_nat (N.size c)) c.
Lemma sconstw_spec r c : srel r (sconstw c) c.
Proof. apply (seval_sound r [] [] (K c)); auto. intros x i. destruct x; simpl; rewrite N.bits_0; unfold sbit; now destruct (N.to_nat i). Qed.

Lemma szero_spec r : srel r [] 0.
Proof. intros i. rewrite N.bits_0. unfold sbit. now destruct (N.to_nat i). Qed.

(* Decidable equality of symbolic words up to trailing zero bits. *)
Fixpoint meqb (a b : mono) : bool :=
  match a, b with
  | [], [] => true
  | x :: a', y :: b' => Pos.eqb x y && meqb a' b'
  | _, _ => false
  end.
Fixpoint peqb (a b : poly) : bool :=
  match a, b with
  | [], [] => true
  | x :: a', y :: b' => meqb x y && peqb a' b'
  | _, _ => false
  end.
Definition pzero (p : poly) : bool := match p with [] => true | _ => false end.
Fixpoint seqb (a b : sword) : bool :=
  match a, b with
  | x :: a', y :: b' => peqb x y && seqb a' b'
  | [], _ => forallb pzero b
  | _, [] => forallb pzero a
  end.

Lemma meqb_eq a b : meqb a b = true -> a = b.
Proof.
  revert b; induction a as [|x a IH]; intros [|y b]; simpl; try discriminate; auto.
  rewrite andb_true_iff, Pos.eqb_eq. intros [-> H]. f_equal; auto.
Qed.
Lemma peqb_eq a b : peqb a b = true -> a = b.
Proof.
  revert b; induction a as [|x a IH]; intros [|y b]; simpl; try discriminate; auto.
  rewrite andb_true_iff. intros [H1 H]. f_equal; auto. now apply meqb_eq.
Qed.
Lemma pzero_nth a i : forallb pzero a = true -> nth i a [] = [].
Proof.
  revert i; induction a as [|x a IH]; intros [|i] H; simpl in *; auto;
    apply andb_true_iff in H; destruct H as [H1 H2]; auto. now destruct x.
Qed.
Lemma seqb_sbit a b : seqb a b = true -> forall i, sbit a i = sbit b i.
Proof.
  unfold sbit. revert b; induction a as [|x a IH]; intros b H i.
  - rewrite (pzero_nth b) by (destruct b; auto). now destruct i.
  - destruct b as [|y b].
    + rewrite (pzero_nth (x :: a)) by auto. now destruct i.
    + simpl in H. apply andb_true_iff in H; destruct H as [H1 H2].
      apply peqb_eq in H1; subst; destruct i as [|i]; simpl; auto.
Qed.

Lemma srel_eq r a b u v : srel r a u -> srel r b v -> seqb a b = true -> u = v.
Proof.
  intros Ha Hb He. apply bits_inj_iff'. intros i. rewrite (Ha i), (Hb i). f_equal.
  now apply seqb_sbit.
Qed.

(* Two programs started on the same input words agree on the listed outputs. *)
Definition sinit (ws : list nat) (n : nat) : senv :=
  map (fun jw => sinput (snd jw) (fst jw)) (combine (seq 0 (length ws)) ws) ++ repeat [] n.
Definition ninit (inp : list N) (n : nat) : env := inp ++ repeat 0 n.

Definition check (ws : list nat) (n : nat) (p q : prog) (outs : list (nat * nat)) : bool :=
  forallb (fun w => w <=? 64)%nat ws && progok p && progok q &&
  (let a := srun p (sinit ws n) in
   let b := srun q (sinit ws n) in
   forallb (fun o => seqb (nth (fst o) a []) (nth (snd o) b [])) outs).

Lemma sinit_spec ws n inp :
  length inp = length ws -> forallb (fun w => w <=? 64)%nat ws = true ->
  (forall j, (j < length ws)%nat -> nth j inp 0 < 2 ^ N.of_nat (nth j ws 0%nat)) ->
  length (sinit ws n) = length (ninit inp n) /\
  forall x, srel (vinput inp) (nth x (sinit ws n) []) (nth x (ninit inp n) 0).
Proof.
  intros Hl Hw Hb. unfold sinit, ninit. rewrite forallb_forall in Hw.
  assert (Hlen : length (map (fun jw => sinput (snd jw) (fst jw)) (combine (seq 0 (length ws)) ws)) = length ws).
  { rewrite map_length, combine_length, seq_length. lia. }
  split.
  - rewrite !app_length, Hlen, !repeat_length. lia.
  - intros x. destruct (Nat.ltb_spec x (length ws)) as [Hx|Hx].
    + rewrite !app_nth1 by lia.
      rewrite (nth_map_lt _ _ _ (O, O)) by (rewrite combine_length, seq_length; lia).
      rewrite combine_nth by (rewrite seq_length; auto). rewrite seq_nth by auto. simpl.
      apply sinput_spec; auto.
      specialize (Hw (nth x ws O)). rewrite Nat.leb_le in Hw. apply Hw. now apply nth_In.
    + rewrite !app_nth2 by lia. rewrite Hlen, Hl.
      change (@nil (list poly)) with (@nil sword). rewrite !nth_repeat.
      apply szero_spec.
Qed.

Theorem check_sound ws n p q outs inp :
  check ws n p q outs = true -> length inp = length ws ->
  (forall j, (j < length ws)%nat -> nth j inp 0 < 2 ^ N.of_nat (nth j ws 0%nat)) ->
  forall o, In o outs ->
  nth (fst o) (run p (ninit inp n)) 0 = nth (snd o) (run q (ninit inp n)) 0.
Proof.
  unfold check. rewrite !andb_true_iff. intros [[[Hw Hp] Hq] Ho] Hl Hb o Hin.
  destruct (sinit_spec ws n inp Hl Hw Hb) as [Hlen Hrel].
  rewrite forallb_forall in Ho. specialize (Ho o Hin).
  eapply srel_eq; [| |exact Ho]; apply srun_sound; auto.
Qed.
