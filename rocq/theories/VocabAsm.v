(* Vocabulary of the theorems on the ARM assembler files at the level of instructions. Definitions only; models no particular file of /repo. *)
From Verif Require Import Base SpecPerm ArmIsa.
Open Scope N_scope.

(* Registers hold 32 bits, memory cells 8. *)
Definition sane (m : mc) : Prop := (forall r, rf m r < 2 ^ 32) /\ (forall a, me m a < 256).
(* What a function must leave as it was (AAPCS): r4-r11 and sp. *)
Definition kept (m m' : mc) : Prop := forall r, List.In r [4; 5; 6; 7; 8; 9; 10; 11; 13]%nat -> rf m' r = rf m r.

(* n bytes at a: as numbers; all may be read, written; two areas have no byte in common; m' has the contents of m outside some areas. *)
Definition bytes_at (m : mc) (a : N) (n : nat) : list N := map (fun i => me m (a + N.of_nat i)) (seq 0 n).
Definition ok (p : N -> bool) (a n : N) : Prop := forall x, a <= x < a + n -> p x = true.
Definition apart (a n b k : N) : Prop := forall x, ~ (a <= x < a + n /\ b <= x < b + k).
Definition untouched (m m' : mc) (l : list (N * N)) : Prop := forall x, (forall a n, List.In (a, n) l -> ~ a <= x < a + n) -> me m' x = me m x.

(* A call of the function at block l of program c. Whatever the rest of the registers and of the memory contain: the function does not fault,
   returns to the address in lr, keeps what it has to keep, and achieves Post; and the accesses to memory and the branches are the same list tr
   for all states with Pre. *)
Definition call (una : bool) (rd wr : N -> bool) (tab : N) (c : code) (l : nat) (Pre : mc -> Prop) (Post : mc -> mc -> Prop) : Prop :=
  exists tr, forall m, sane m -> Pre m -> exists fuel m',
    exec una rd wr tab fuel c l m = Back (rf m 14%nat) m' /\ tc m' = tr ++ tc m /\ sane m' /\ kept m m' /\ Post m m'.

(* The table of round constants and the terminator behind it lie at tab: halfwords, little-endian. *)
Definition has_table (tab : N) (t : list N) (m : mc) : Prop := bytes_at m tab 42 = concat (map (word_le 2) t).

(* A place for the permutation: state at s, stack pointer sp with frame bytes below it, table at tab. *)
Record placed (rd wr : N -> bool) (tab s sp frame : N) : Prop := {
  pl_s : s mod 4 = 0; pl_s' : s + 50 < 2 ^ 32; pl_sp : sp mod 4 = 0; pl_sp' : frame <= sp; pl_sp'' : sp < 2 ^ 32; pl_t : tab mod 2 = 0; pl_t' : tab + 42 < 2 ^ 32;
  pl_rs : ok rd s 50; pl_ws : ok wr s 50; pl_rf : ok rd (sp - frame) frame; pl_wf : ok wr (sp - frame) frame; pl_rt : ok rd tab 42;
  pl_sf : apart s 50 (sp - frame) frame; pl_ts : apart tab 42 s 50; pl_tf : apart tab 42 (sp - frame) frame }.

(* A call of the function at block l ends in a fault, whatever the state. *)
Definition faults (una : bool) (rd wr : N -> bool) (tab : N) (c : code) (l : nat) : Prop :=
  exists n, forall fuel m, exec una rd wr tab (n + fuel) c l m = Fault.
