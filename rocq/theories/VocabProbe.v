(* Vocabulary of property C54: on which states ISAP calls its permutation, written from the specification. Definitions only; of the models of the
   code only memory and traces (Mem.v) are used. *)
From Verif Require Import Base Mem Vocab SpecPerm Spec.
Open Scope N_scope.

(* f ends normally, with value a and memory m', and ps is what the permutation calls add to the trace. *)
Definition logs {A} (f : M A) (m : mem) (a : A) (m' : mem) (ps : list N) : Prop :=
  forall t, exists t', f (St m t) = Ok a (St m' t') /\ perms t' = perms t ++ ps.

(* A call of the permutation: the state it is given and the number of rounds. *)
Definition call : Type := list N * nat.

(* What the device records for a list of calls. *)
Definition seen (leak : list N -> N) (cs : list call) : list N :=
  concat (map (fun c => [leak (fst c); N.of_nat (snd c)]) cs).

(* The state with its first bit inverted. *)
Definition flip1 (s : list N) : list N := match s with [] => [] | x :: s' => N.lxor x 0x80 :: s' end.

Section Calls.
  Variable I : inst.
  Notation p_B := (i_perm I (i_sB I)).

  (* The re-keying: the state before the next bit is s. *)
  Fixpoint rk_steps (s : list N) (Y : list bool) : list call :=
    match Y with
    | [] => []
    | [b] => [(if b then flip1 s else s, i_sK I)]
    | b :: Y' => let x := if b then flip1 s else s in (x, i_sB I) :: rk_steps (p_B x) Y'
    end.
  Definition rk_in (k iv Y : list N) : list call :=
    let x := zpad I (k ++ iv) in (x, i_sK I) :: rk_steps (i_perm I (i_sK I) x) (msb_bits Y).

  (* The key stream: n calls, each on the result of the one before. *)
  Fixpoint stream (s : list N) (n : nat) : list call :=
    match n with O => [] | S n' => (s, i_sE I) :: stream (i_perm I (i_sE I) s) n' end.
  Definition enc_in (k n : list N) (len : nat) : list call :=
    if (len =? 0)%nat then []
    else rk_in k (iv_KE I) n ++ stream (isap_rk I k (iv_KE I) n (i_sz I - 16) ++ n) ((len + i_rate I - 1) / i_rate I).

  (* The hash in front of the authentication key: no key is used. *)
  Fixpoint absorb_in (s : list N) (blocks : list (list N)) : list call :=
    match blocks with
    | [] => []
    | b :: bs => (xorp s b, i_sH I) :: absorb_in (i_perm I (i_sH I) (xorp s b)) bs
    end.
  Definition hash_start (n : list N) : list N := zpad I (n ++ iv_A I).
  Definition hash_mid (n a : list N) : list N :=
    dom_sep I (absorb I (i_perm I (i_sH I) (hash_start n)) (chunks (i_rate I) (pad (i_rate I) a))).
  Definition hash_in (n a c : list N) : list call :=
    (hash_start n, i_sH I) ::
    absorb_in (i_perm I (i_sH I) (hash_start n)) (chunks (i_rate I) (pad (i_rate I) a)) ++
    absorb_in (hash_mid n a) (chunks (i_rate I) (pad (i_rate I) c)).
  Definition hash_end (n a c : list N) : list N := absorb I (hash_mid n a) (chunks (i_rate I) (pad (i_rate I) c)).

  (* The whole MAC: hash, re-keying with the first half of the hash state, one last call. *)
  Definition mac_in (k n a c : list N) : list call :=
    let h := hash_end n a c in
    hash_in n a c ++ rk_in k (iv_KA I) (firstn 16 h) ++ [(isap_rk I k (iv_KA I) (firstn 16 h) 16 ++ skipn 16 h, i_sH I)].
End Calls.

(* Two re-keyings: 129 calls each, and as long as the calls agreed, the next one has at most two possible inputs: s and s with its first bit
   inverted. *)
Definition two_limited (R R' : list call) : Prop :=
  length R = 129%nat /\ length R' = 129%nat /\
  forall i x r x' r', firstn i R = firstn i R' -> nth_error R i = Some (x, r) -> nth_error R' i = Some (x', r') ->
    r' = r /\ (x' = x \/ x' = flip1 x).
