(* A small language of straight-line word programs (C assignments / register instructions without
   memory access) with its semantics over N. Used to transcribe the permutation kernels of /repo. *)
From Verif Require Import Base.
Open Scope N_scope.

(* Expressions. Every operator that can produce bits above its C/assembly type carries the width. *)
Inductive exp :=
| V (x : nat)                       (* variable *)
| K (c : N)                         (* constant *)
| Xor (a b : exp)
| And (a b : exp)
| Or (a b : exp)
| Not (w : N) (a : exp)             (* bitwise complement in w bits *)
| Shl (w : N) (a : exp) (k : N)     (* left shift, result truncated to w bits *)
| Shr (a : exp) (k : N)             (* right shift *)
| Ror (w : N) (a : exp) (k : N)     (* rotate right within w bits *)
| Trunc (w : N) (a : exp).          (* conversion to a w-bit unsigned type *)

Inductive stmt := Asg (x : nat) (e : exp).
Definition prog := list stmt.

(* w-bit word operations on N. *)
Definition wnot (w a : N) : N := N.ldiff (N.ones w) a.
Definition wtrunc (w a : N) : N := N.land a (N.ones w).
Definition wshl (w a k : N) : N := wtrunc w (N.shiftl a k).
Definition wror (w a k : N) : N := N.lor (N.shiftr (wtrunc w a) k) (wshl w a (w - k)).

Definition env := list N.

Fixpoint eval (r : env) (e : exp) : N :=
  match e with
  | V x => nth x r 0
  | K c => c
  | Xor a b => N.lxor (eval r a) (eval r b)
  | And a b => N.land (eval r a) (eval r b)
  | Or a b => N.lor (eval r a) (eval r b)
  | Not w a => wnot w (eval r a)
  | Shl w a k => wshl w (eval r a) k
  | Shr a k => N.shiftr (eval r a) k
  | Ror w a k => wror w (eval r a) k
  | Trunc w a => wtrunc w (eval r a)
  end.

Definition step (r : env) (s : stmt) : env :=
  match s with Asg x e => upd_nth r x (eval r e) end.

Definition run (p : prog) (r : env) : env := fold_left step p r.

Lemma run_app p q r : run (p ++ q) r = run q (run p r).
Proof. apply fold_left_app. Qed.

Lemma run_length p r : length (run p r) = length r.
Proof.
  revert r; induction p as [|[x e] p IH]; intros r; simpl; auto.
  unfold run in *. simpl. rewrite IH. apply upd_nth_length.
Qed.

Declare Scope prog_scope.
Delimit Scope prog_scope with prog.
Coercion V : nat >-> exp.
(* C precedences: & binds tighter than ^, which binds tighter than |. *)
Notation "a '.&' b" := (And a b) (at level 40, left associativity) : prog_scope.
Notation "a '.^' b" := (Xor a b) (at level 45, left associativity) : prog_scope.
Notation "a '.|' b" := (Or a b) (at level 50, left associativity) : prog_scope.
Notation "x '::=' e" := (Asg x e) (at level 85, e at level 84) : prog_scope.
Notation "x '^=' e" := (Asg x (Xor (V x) e)) (at level 85, e at level 84) : prog_scope.
Notation "x '&=' e" := (Asg x (And (V x) e)) (at level 85, e at level 84) : prog_scope.
Notation "x '|=' e" := (Asg x (Or (V x) e)) (at level 85, e at level 84) : prog_scope.

(* Bit characterisations of the word operations. *)
Lemma tb_wtrunc w a i : N.testbit (wtrunc w a) i = (i <? w) && N.testbit a i.
Proof.
  unfold wtrunc. rewrite N.land_spec.
  destruct (N.ltb_spec i w) as [H|H].
  - rewrite N.ones_spec_low by lia. now rewrite andb_true_r.
  - rewrite N.ones_spec_high by lia. now rewrite andb_false_r.
Qed.

Lemma tb_wnot w a i : N.testbit (wnot w a) i = (i <? w) && negb (N.testbit a i).
Proof.
  unfold wnot. rewrite N.ldiff_spec.
  destruct (N.ltb_spec i w) as [H|H].
  - rewrite N.ones_spec_low by lia. reflexivity.
  - rewrite N.ones_spec_high by lia. reflexivity.
Qed.

Lemma tb_shiftl a k i : N.testbit (N.shiftl a k) i = (k <=? i) && N.testbit a (i - k).
Proof.
  destruct (N.leb_spec k i) as [H|H].
  - rewrite N.shiftl_spec_high by lia. reflexivity.
  - rewrite N.shiftl_spec_low by lia. reflexivity.
Qed.

Lemma tb_shiftr a k i : N.testbit (N.shiftr a k) i = N.testbit a (i + k).
Proof. apply N.shiftr_spec. lia. Qed.

Lemma tb_wshl w a k i : N.testbit (wshl w a k) i = (i <? w) && ((k <=? i) && N.testbit a (i - k)).
Proof. unfold wshl. now rewrite tb_wtrunc, tb_shiftl. Qed.

Lemma tb_wror w a k i :
  k < w -> N.testbit (wror w a k) i = (i <? w) && N.testbit a ((i + k) mod w).
Proof.
  intros Hk. unfold wror. rewrite N.lor_spec, tb_shiftr, tb_wtrunc, tb_wshl.
  destruct (N.ltb_spec i w) as [H|H]; simpl.
  - destruct (N.ltb_spec (i + k) w) as [H1|H1]; simpl.
    + rewrite N.mod_small by lia.
      destruct (N.leb_spec (w - k) i); simpl; [lia|]. apply orb_false_r.
    + destruct (N.leb_spec (w - k) i); simpl; [|lia].
      replace ((i + k) mod w) with (i - (w - k)); auto.
      apply N.mod_unique with 1; lia.
  - destruct (N.ltb_spec (i + k) w); simpl; auto. lia.
Qed.

Lemma bits_inj_iff' a b : (forall i, N.testbit a i = N.testbit b i) -> a = b.
Proof. apply N.bits_inj_iff. Qed.

Lemma tb_high a w i : a < 2 ^ w -> w <= i -> N.testbit a i = false.
Proof.
  intros Ha Hi. destruct (N.eq_dec a 0) as [->|Hz]; [apply N.bits_0|].
  apply N.bits_above_log2. apply N.log2_lt_pow2 in Ha; lia.
Qed.

Lemma lt_pow2_tb a w : (forall i, w <= i -> N.testbit a i = false) -> a < 2 ^ w.
Proof.
  intros H. destruct (N.eq_dec a 0) as [->|Hz].
  - apply N.neq_0_lt_0. apply N.pow_nonzero. lia.
  - apply N.log2_lt_pow2; [lia|].
    destruct (N.lt_ge_cases (N.log2 a) w) as [|Hge]; auto.
    specialize (H _ Hge). rewrite N.bit_log2 in H by auto. discriminate.
Qed.

Lemma wtrunc_lt w a : wtrunc w a < 2 ^ w.
Proof.
  apply lt_pow2_tb. intros i Hi. rewrite tb_wtrunc. destruct (N.ltb_spec i w); auto; lia.
Qed.

Lemma wtrunc_id w a : a < 2 ^ w -> wtrunc w a = a.
Proof.
  intros H. apply bits_inj_iff'. intros i. rewrite tb_wtrunc.
  destruct (N.ltb_spec i w) as [|Hi]; auto. now rewrite (tb_high _ _ i H Hi).
Qed.

Lemma wtrunc_mod w a : wtrunc w a = a mod 2 ^ w.
Proof. unfold wtrunc. apply N.land_ones. Qed.

Lemma lxor_lt a b w : a < 2 ^ w -> b < 2 ^ w -> N.lxor a b < 2 ^ w.
Proof.
  intros Ha Hb. apply lt_pow2_tb. intros i Hi.
  rewrite N.lxor_spec, (tb_high _ _ i Ha Hi), (tb_high _ _ i Hb Hi). reflexivity.
Qed.

Lemma land_lt_l a b w : a < 2 ^ w -> N.land a b < 2 ^ w.
Proof.
  intros Ha. apply lt_pow2_tb. intros i Hi. rewrite N.land_spec, (tb_high _ _ i Ha Hi). reflexivity.
Qed.

Lemma lor_lt a b w : a < 2 ^ w -> b < 2 ^ w -> N.lor a b < 2 ^ w.
Proof.
  intros Ha Hb. apply lt_pow2_tb. intros i Hi.
  rewrite N.lor_spec, (tb_high _ _ i Ha Hi), (tb_high _ _ i Hb Hi). reflexivity.
Qed.

Lemma shiftr_lt a k w : a < 2 ^ w -> N.shiftr a k < 2 ^ w.
Proof.
  intros Ha. apply lt_pow2_tb. intros i Hi. rewrite tb_shiftr. apply (tb_high _ w); auto; lia.
Qed.

Lemma wnot_lt w a : wnot w a < 2 ^ w.
Proof.
  apply lt_pow2_tb. intros i Hi. rewrite tb_wnot. destruct (N.ltb_spec i w); auto; lia.
Qed.

Lemma wshl_lt w a k : wshl w a k < 2 ^ w.
Proof. apply wtrunc_lt. Qed.

Lemma wror_lt w a k : wror w a k < 2 ^ w.
Proof.
  unfold wror. apply lor_lt; [|apply wshl_lt]. apply shiftr_lt, wtrunc_lt.
Qed.
