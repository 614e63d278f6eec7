(* What isapa128av20/bi_32_armv7m computes: ISAP-A-128A and Ascon-Hash with another permutation, stated over the specification of Ascon.
   Definitions only; models no code of /repo. *)
From Verif Require Import Base SpecPerm Mem Vocab Vocab2 VocabK.
From Verif Require Spec.
Open Scope N_scope.

(* Lanes 3, 4, 0, 1, 2. *)
Definition rot3 (ws : list N) : list N := skipn 3 ws ++ firstn 3 ws.
(* Ascon-p with the lanes rotated by three places after every round. *)
Definition v7m_words (r : nat) (ws : list N) : list N :=
  fold_left (fun s c => rot3 (ascon_round c s)) (skipn (12 - r) ascon_rc) ws.
Definition v7m_p (r : nat) (bs : list N) : list N :=
  concat (map (word_be 8) (v7m_words r (map be_word (chunks 8 bs)))).
(* ISAP-A-128A with that permutation. *)
Definition ISAP_V7M : Spec.inst := Spec.Inst 40 8 12 1 6 12 v7m_p.
(* Ascon-Hash with that permutation. *)
Definition v7m_hash (m : list N) : list N :=
  let s := v7m_p 12 (Spec.ascon_hash_iv ++ repeat 0 32) in
  let s := fold_left (fun s b => v7m_p 12 (Spec.xorp s b)) (chunks 8 (Spec.pad 8 m)) s in
  firstn 8 s ++ firstn 8 (v7m_p 12 s) ++ firstn 8 (v7m_p 12 (v7m_p 12 s)) ++ firstn 8 (v7m_p 12 (v7m_p 12 (v7m_p 12 s))).

(* Calls all of whose pointers are 8-byte aligned, on a machine that cares. *)
Definition al8_call (cf : cfg) : ext := fun _ k npub ad _ p q _ => al8 cf k /\ al8 cf npub /\ al8 cf ad /\ al8 cf p /\ al8 cf q.
