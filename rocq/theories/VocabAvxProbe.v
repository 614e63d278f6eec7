(* Vocabulary of property C62: the order in which isapa128av20/avx_512 permutes. Definitions only, on top of the lists of calls of VocabProbe.v,
   which are written from the specification. *)
From Verif Require Import Base Words Mem Vocab SpecPerm Spec VocabProbe.
Open Scope N_scope.

(* One permutation of the state s with r rounds, or six rounds on the two states of the vector registers side by side. *)
Inductive vcall := one (s : list N) (r : nat) | both (e m : list N).
Definition ones (cs : list call) : list vcall := map (fun c => one (fst c) (snd c)) cs.
(* What the device records. *)
Definition seen_v (leak : list N -> N) (cs : list vcall) : list N :=
  concat (map (fun c => match c with one s r => [leak s; N.of_nat r] | both e m => [leak e; leak m; 6] end) cs).

(* The state after the first six of the twelve rounds of Ascon. *)
Definition half (s : list N) : list N :=
  concat (map (word_be 8) (fold_left (fun s c => ascon_round c s) (firstn 6 ascon_rc) (map be_word (chunks 8 s)))).

(* Two calls for the key stream (six rounds each) beside one call of the hash (twelve rounds, in two halves). *)
Fixpoint pairs (es ms : list call) : list vcall :=
  match es, ms with
  | e1 :: e2 :: es', m :: ms' => both (fst e1) (fst m) :: both (fst e2) (half (fst m)) :: pairs es' ms'
  | _, _ => []
  end.

(* Encryption of T: re-keying; the hash up to the last block of the associated data; then, side by side, two calls for the key stream and one call of
   the hash, for every 16 bytes of the message, at least once; the rest of the hash; re-keying; the call before the tag. *)
Definition avx_rounds_n (len : nat) : nat := Nat.max 1 ((len + 15) / 16).
Definition avx_enc_in (K Nn A T : list N) : list vcall :=
  let I := ISAP_A_128A in
  let C := isap_enc I K Nn T in
  let n := avx_rounds_n (length T) in
  let b := S (length A / 8) in
  let h := hash_end I Nn A C in
  ones (rk_in I K (iv_KE I) Nn ++ firstn b (hash_in I Nn A C)) ++
  pairs (stream I (isap_rk I K (iv_KE I) Nn 24 ++ Nn) (2 * n)) (skipn b (hash_in I Nn A C)) ++
  ones (skipn (b + n) (hash_in I Nn A C) ++ rk_in I K (iv_KA I) (firstn 16 h) ++
        [(isap_rk I K (iv_KA I) (firstn 16 h) 16 ++ skipn 16 h, 12%nat)]).
