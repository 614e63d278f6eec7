(* A concrete state of the machine of ArmIsa.v for the examples of PropsAsm.v. *)
From Verif Require Import Base SpecPerm Words ArmIsa ArmAsm VocabAsm ArmFun ArmPermFun.
Open Scope N_scope.

(* Table at 0x100, state at 0x200, data at 0x300, output at 0x400, stack pointer 0x800; everything may be read, all but the table written. *)
Definition ex_tab : N := 0x100. Definition ex_s : N := 0x200. Definition ex_d : N := 0x300. Definition ex_o : N := 0x400. Definition ex_sp : N := 0x800.
Definition ex_rd (_ : N) : bool := true.
Definition ex_wr (a : N) : bool := ex_s <=? a.
Definition ex_state : list N := map (fun i => (7 * N.of_nat i + 3) mod 256) (seq 0 50).
Definition ex_data : list N := map (fun i => (91 * N.of_nat i + 17) mod 256) (seq 0 50).
Definition ex_mem (t : list N) (a : N) : N :=
  if a <? ex_s then nth (N.to_nat (a - ex_tab)) (concat (map (word_le 2) t)) 0
  else if a <? ex_d then nth (N.to_nat (a - ex_s)) ex_state 0
  else if a <? ex_o then nth (N.to_nat (a - ex_d)) ex_data 0
  else if a =? ex_sp then 5 else 0.
Definition ex_regs (l : list N) (r : nat) : N :=
  if (r =? 13)%nat then ex_sp else if (r =? 14)%nat then 0x99 else nth r l (0xABCDEF00 + N.of_nat r).
Definition ex_mc (t l : list N) : mc := Mc (fun r => ex_regs l r mod 2 ^ 32) false false (fun a => ex_mem t a mod 256) [].

Lemma ex_sane t l : sane (ex_mc t l).
Proof. split; intros x; apply N.mod_lt; discriminate. Qed.
Lemma ex_placed f : f <= 100 -> placed ex_rd ex_wr ex_tab ex_s ex_sp f.
Proof.
  intros Hf. constructor; try reflexivity; unfold ok, apart, ex_rd, ex_wr, ex_tab, ex_s, ex_sp; try (intros x; lia); try lia;
    intros x Hx; try reflexivity; apply N.leb_le; lia.
Qed.

Definition ran (o : outcome) (a s : N) (n : nat) (out : list N) : bool :=
  match o with Back b m => (b =? a) && forallb (fun p => fst p =? snd p) (combine (bytes_at m s n) out) && (length out =? n)%nat | _ => false end.
