(* Shared imports and small list facts. No code of /repo is modelled in this file. *)
From Coq Require Export List Arith NArith ZArith Lia Bool.
From Coq Require Export ZifyBool ZifyNat ZifyN.
Export ListNotations.

Ltac Zify.zify_post_hook ::= Z.div_mod_to_equations.

Arguments N.add : simpl never.
Arguments N.sub : simpl never.
Arguments N.mul : simpl never.
Arguments N.div : simpl never.
Arguments N.modulo : simpl never.
Arguments N.shiftl : simpl never.
Arguments N.shiftr : simpl never.
Arguments N.land : simpl never.
Arguments N.lor : simpl never.
Arguments N.lxor : simpl never.
Arguments N.ldiff : simpl never.
Arguments N.testbit : simpl never.
Arguments N.ones : simpl never.
Arguments N.pow : simpl never.
Arguments N.of_nat : simpl never.
Arguments N.to_nat : simpl never.

(* Replace element number [n] of [l]; no change when [n] is out of range. *)
Fixpoint upd_nth {A} (l : list A) (n : nat) (x : A) : list A :=
  match l, n with
  | [], _ => []
  | _ :: t, O => x :: t
  | h :: t, S n' => h :: upd_nth t n' x
  end.

Lemma upd_nth_length {A} (l : list A) n x : length (upd_nth l n x) = length l.
Proof. revert n; induction l as [|h t IH]; intros [|n]; simpl; auto. Qed.

Lemma nth_upd_nth {A} (l : list A) n m x d :
  nth m (upd_nth l n x) d = if (m =? n)%nat then (if (n <? length l)%nat then x else d) else nth m l d.
Proof.
  revert n m; induction l as [|h t IH]; intros [|n] [|m]; simpl; auto.
  - destruct (Nat.eqb_spec m n); auto.
  - rewrite IH. destruct (Nat.eqb_spec m n); auto.
Qed.

Lemma nth_error_upd_nth {A} (l : list A) n m x :
  nth_error (upd_nth l n x) m =
  if (m =? n)%nat then (if (n <? length l)%nat then Some x else None) else nth_error l m.
Proof.
  revert n m; induction l as [|h t IH]; intros [|n] [|m]; simpl; auto.
  - destruct (Nat.eqb_spec m n); auto.
  - rewrite IH. destruct (Nat.eqb_spec m n); auto.
Qed.

Lemma upd_nth_app_l {A} (l1 l2 : list A) n x :
  (n < length l1)%nat -> upd_nth (l1 ++ l2) n x = upd_nth l1 n x ++ l2.
Proof.
  revert n; induction l1 as [|h t IH]; intros [|n] H; simpl in *; try lia; auto.
  rewrite IH by lia; auto.
Qed.

Lemma upd_nth_app_r {A} (l1 l2 : list A) n x :
  upd_nth (l1 ++ l2) (length l1 + n) x = l1 ++ upd_nth l2 n x.
Proof. induction l1 as [|h t IH]; simpl; auto. rewrite IH; auto. Qed.

Lemma list_eq_nth_error {A} (l1 l2 : list A) :
  (forall i, nth_error l1 i = nth_error l2 i) -> l1 = l2.
Proof.
  revert l2; induction l1 as [|a l1 IH]; intros [|b l2] H; auto.
  - specialize (H O); discriminate H.
  - specialize (H O); discriminate H.
  - pose proof (H O) as H0; simpl in H0; injection H0 as ->. f_equal.
    apply IH. intros i. exact (H (S i)).
Qed.

Lemma nth_ext_le {A} (l1 l2 : list A) d :
  length l1 = length l2 -> (forall i, (i < length l1)%nat -> nth i l1 d = nth i l2 d) -> l1 = l2.
Proof. intros Hl H. apply (nth_ext _ _ d d Hl). auto. Qed.

Lemma nth_map_lt {A B} (f : A -> B) l i da db :
  (i < length l)%nat -> nth i (map f l) db = f (nth i l da).
Proof.
  intros H. rewrite (nth_indep _ db (f da)) by (rewrite map_length; auto). apply map_nth.
Qed.

Lemma firstn_snoc {A} (l : list A) i d :
  (i < length l)%nat -> firstn (S i) l = firstn i l ++ [nth i l d].
Proof.
  revert i; induction l as [|h t IH]; intros [|i] H; simpl in *; try lia; auto.
  f_equal. apply IH. lia.
Qed.

Lemma skipn_cons_nth {A} (l : list A) i d :
  (i < length l)%nat -> skipn i l = nth i l d :: skipn (S i) l.
Proof.
  revert i; induction l as [|h t IH]; intros [|i] H; simpl in *; try lia; auto.
  apply IH. lia.
Qed.

Lemma Forall_nth_lt {A} (P : A -> Prop) l i d : Forall P l -> (i < length l)%nat -> P (nth i l d).
Proof. intros H Hi. rewrite Forall_forall in H. apply H. apply nth_In; auto. Qed.

(* All elements are bytes. *)
Definition bytes (l : list N) : Prop := Forall (fun b => (b < 256)%N) l.

Lemma bytes_app l1 l2 : bytes (l1 ++ l2) <-> bytes l1 /\ bytes l2.
Proof. apply Forall_app. Qed.

Lemma bytes_firstn n l : bytes l -> bytes (firstn n l).
Proof. intros H. rewrite <- (firstn_skipn n l) in H. apply bytes_app in H. tauto. Qed.

Lemma bytes_skipn n l : bytes l -> bytes (skipn n l).
Proof. intros H. rewrite <- (firstn_skipn n l) in H. apply bytes_app in H. tauto. Qed.

Lemma bytes_repeat b n : (b < 256)%N -> bytes (repeat b n).
Proof. intros H. apply Forall_forall. intros x Hx. apply repeat_spec in Hx. subst; auto. Qed.

Lemma fold_sim {E S I C} (f : E -> I -> E) (g : S -> C -> S) (h : I -> C) (R : E -> S -> Prop) idx :
  (forall e s i, In i idx -> R e s -> R (f e i) (g s (h i))) ->
  forall e s, R e s -> R (fold_left f idx e) (fold_left g (map h idx) s).
Proof.
  induction idx as [|i idx IH]; intros H e s Hr; simpl; auto.
  apply IH; [intros; apply H; simpl; auto | apply H; simpl; auto].
Qed.

Lemma fold_sim2 {E S I J} (f : E -> J -> E) (g : S -> I -> S) (h : I -> J) (R : E -> S -> Prop) idx :
  (forall e s i, In i idx -> R e s -> R (f e (h i)) (g s i)) ->
  forall e s, R e s -> R (fold_left f (map h idx) e) (fold_left g idx s).
Proof.
  induction idx as [|i idx IH]; intros H e s Hr; simpl; auto.
  apply IH; [intros; apply H; simpl; auto | apply H; simpl; auto].
Qed.

Lemma nth_firstn_lt {A} (l : list A) n i d : (i < n)%nat -> nth i (firstn n l) d = nth i l d.
Proof.
  revert l i; induction n as [|n IH]; intros l i H; [lia|].
  destruct l as [|x l]; auto. destruct i as [|i]; simpl; auto. apply IH. lia.
Qed.

Lemma nth_skipn_add {A} (l : list A) n i d : nth i (skipn n l) d = nth (n + i) l d.
Proof.
  revert l; induction n as [|n IH]; intros l; simpl; auto. destruct l; simpl; auto. now destruct i.
Qed.
