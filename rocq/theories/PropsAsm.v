(* Property C50: KeccakP-400-armv7m-le-gcc.s and KeccakP-400-armv6m-le-gcc.s of isapk128av20 and isapk128v20, instruction by instruction, with the
   stack, the callee-saved registers and the addresses. Only statements: proofs are in ArmSim.v, ArmLoop.v, ArmPerm7.v, ArmPerm6.v, ArmBytes.v, ArmZero.v,
   ArmTrap.v. call (VocabAsm.v) says: no fault, return to lr, r4-r11 and sp as before, and addresses and branches independent of the data. *)
From Verif Require Import Base SpecPerm ArmIsa ArmAsm VocabAsm ArmPerm7 ArmPerm6 ArmBytes ArmZero ArmTrap ArmEx.
Open Scope N_scope.

(* ---- The hypotheses can be met: a state, a placement, and what the programs do with them. ---- *)
Example ex_asm_placed : placed ex_rd ex_wr ex_tab ex_s ex_sp 96 /\ placed ex_rd ex_wr ex_tab ex_s ex_sp 100.
Proof. split; apply ex_placed; discriminate. Qed.
Example ex_asm_pre7 : let m := ex_mc table7 [ex_s; 5] in
  sane m /\ rf m 0%nat = ex_s /\ rf m 1%nat = 5 /\ rf m 13%nat = ex_sp /\ has_table ex_tab table7 m.
Proof. split; [apply ex_sane|]. repeat split; reflexivity. Qed.
Example ex_asm_pre6 : let m := ex_mc table6 [ex_s; 5] in
  sane m /\ rf m 0%nat = ex_s /\ rf m 1%nat = 5 /\ rf m 13%nat = ex_sp /\ has_table ex_tab table6 m.
Proof. split; [apply ex_sane|]. repeat split; reflexivity. Qed.
Example ex_asm_run7 : ran (exec true ex_rd ex_wr ex_tab 9 armv7m_s Permute_Nrounds7 (ex_mc table7 [ex_s; 1])) 0x99 ex_s 50 (keccak_p 1 ex_state) = true.
Proof. vm_compute. reflexivity. Qed.
Example ex_asm_run6 : ran (exec false ex_rd ex_wr ex_tab 9 armv6m_s Permute_Nrounds6 (ex_mc table6 [ex_s; 1])) 0x99 ex_s 50 (keccak_p 1 ex_state) = true.
Proof. vm_compute. reflexivity. Qed.
Example ex_asm_add : ran (exec false ex_rd ex_wr ex_tab 9 armv6m_s AddBytes (ex_mc table6 [ex_s; ex_d; 3; 4])) 0x99 (ex_s + 3) 4
  (map (fun i => N.lxor (nth (3 + i) ex_state 0) (nth i ex_data 0)) (seq 0 4)) = true.
Proof. vm_compute. reflexivity. Qed.
Example ex_asm_extadd : ran (exec false ex_rd ex_wr ex_tab 9 armv6m_s ExtractAndAddBytes (ex_mc table6 [ex_s; ex_d; ex_o; 3])) 0x99 ex_o 5
  (map (fun i => N.lxor (nth (3 + i) ex_state 0) (nth i ex_data 0)) (seq 0 5)) = true.
Proof. vm_compute. reflexivity. Qed.
Example ex_asm_zero : ran (exec false ex_rd ex_wr ex_tab 20 armv7m_s OverwriteWithZeroes (ex_mc table7 [ex_s; 11])) 0x99 ex_s 12
  (repeat 0 11 ++ [nth 11 ex_state 0]) = true.
Proof. vm_compute. reflexivity. Qed.

(* ---- C50: the permutation ---- *)

Theorem C50_armv7m_nrounds rd wr tab s sp n : placed rd wr tab s sp 96 -> (0 < n <= 20)%nat ->
  call true rd wr tab armv7m_s Permute_Nrounds7
    (fun m => rf m 0%nat = s /\ rf m 1%nat = N.of_nat n /\ rf m 13%nat = sp /\ has_table tab table7 m)
    (fun m m' => bytes_at m' s 50 = keccak_p n (bytes_at m s 50) /\ untouched m m' [(s, 50); (sp - 96, 96)]).
Proof. exact (fun P => nrounds7 rd wr tab s sp (pl_s _ _ _ _ _ _ P) (pl_s' _ _ _ _ _ _ P) (pl_sp _ _ _ _ _ _ P) (pl_sp' _ _ _ _ _ _ P) (pl_sp'' _ _ _ _ _ _ P)
  (pl_t _ _ _ _ _ _ P) (pl_t' _ _ _ _ _ _ P) (pl_rs _ _ _ _ _ _ P) (pl_ws _ _ _ _ _ _ P) (pl_rf _ _ _ _ _ _ P) (pl_wf _ _ _ _ _ _ P) (pl_rt _ _ _ _ _ _ P)
  (pl_sf _ _ _ _ _ _ P) (pl_ts _ _ _ _ _ _ P) (pl_tf _ _ _ _ _ _ P) n). Qed.
Print Assumptions C50_armv7m_nrounds.

Theorem C50_armv7m_20rounds rd wr tab s sp : placed rd wr tab s sp 96 ->
  call true rd wr tab armv7m_s Permute_20rounds7
    (fun m => rf m 0%nat = s /\ rf m 13%nat = sp /\ has_table tab table7 m)
    (fun m m' => bytes_at m' s 50 = keccak_p 20 (bytes_at m s 50) /\ untouched m m' [(s, 50); (sp - 96, 96)]).
Proof. exact (fun P => rounds20_7 rd wr tab s sp (pl_s _ _ _ _ _ _ P) (pl_s' _ _ _ _ _ _ P) (pl_sp _ _ _ _ _ _ P) (pl_sp' _ _ _ _ _ _ P) (pl_sp'' _ _ _ _ _ _ P)
  (pl_t _ _ _ _ _ _ P) (pl_t' _ _ _ _ _ _ P) (pl_rs _ _ _ _ _ _ P) (pl_ws _ _ _ _ _ _ P) (pl_rf _ _ _ _ _ _ P) (pl_wf _ _ _ _ _ _ P) (pl_rt _ _ _ _ _ _ P)
  (pl_sf _ _ _ _ _ _ P) (pl_ts _ _ _ _ _ _ P) (pl_tf _ _ _ _ _ _ P)). Qed.
Print Assumptions C50_armv7m_20rounds.

(* armv6m: with or without unaligned accesses. *)
Theorem C50_armv6m_nrounds una rd wr tab s sp n : placed rd wr tab s sp 100 -> (0 < n <= 20)%nat ->
  call una rd wr tab armv6m_s Permute_Nrounds6
    (fun m => rf m 0%nat = s /\ rf m 1%nat = N.of_nat n /\ rf m 13%nat = sp /\ has_table tab table6 m)
    (fun m m' => bytes_at m' s 50 = keccak_p n (bytes_at m s 50) /\ untouched m m' [(s, 50); (sp - 100, 100)]).
Proof. exact (fun P => nrounds6 una rd wr tab s sp (pl_s _ _ _ _ _ _ P) (pl_s' _ _ _ _ _ _ P) (pl_sp _ _ _ _ _ _ P) (pl_sp' _ _ _ _ _ _ P) (pl_sp'' _ _ _ _ _ _ P)
  (pl_t _ _ _ _ _ _ P) (pl_t' _ _ _ _ _ _ P) (pl_rs _ _ _ _ _ _ P) (pl_ws _ _ _ _ _ _ P) (pl_rf _ _ _ _ _ _ P) (pl_wf _ _ _ _ _ _ P) (pl_rt _ _ _ _ _ _ P)
  (pl_sf _ _ _ _ _ _ P) (pl_ts _ _ _ _ _ _ P) (pl_tf _ _ _ _ _ _ P) n). Qed.
Print Assumptions C50_armv6m_nrounds.

Theorem C50_armv6m_20rounds una rd wr tab s sp : placed rd wr tab s sp 100 ->
  call una rd wr tab armv6m_s Permute_20rounds6
    (fun m => rf m 0%nat = s /\ rf m 13%nat = sp /\ has_table tab table6 m)
    (fun m m' => bytes_at m' s 50 = keccak_p 20 (bytes_at m s 50) /\ untouched m m' [(s, 50); (sp - 100, 100)]).
Proof. exact (fun P => rounds20_6 una rd wr tab s sp (pl_s _ _ _ _ _ _ P) (pl_s' _ _ _ _ _ _ P) (pl_sp _ _ _ _ _ _ P) (pl_sp' _ _ _ _ _ _ P) (pl_sp'' _ _ _ _ _ _ P)
  (pl_t _ _ _ _ _ _ P) (pl_t' _ _ _ _ _ _ P) (pl_rs _ _ _ _ _ _ P) (pl_ws _ _ _ _ _ _ P) (pl_rf _ _ _ _ _ _ P) (pl_wf _ _ _ _ _ _ P) (pl_rt _ _ _ _ _ _ P)
  (pl_sf _ _ _ _ _ _ P) (pl_ts _ _ _ _ _ _ P) (pl_tf _ _ _ _ _ _ P)). Qed.
Print Assumptions C50_armv6m_20rounds.

(* armv7m on a core that traps unaligned words: every call of the permutation ends in a fault, whatever registers and memory hold, aligned state or not. *)
Theorem C50_armv7m_unaligned_refuted rd wr tab :
  faults false rd wr tab armv7m_s Permute_Nrounds7 /\ faults false rd wr tab armv7m_s Permute_20rounds7.
Proof. exact (conj (trap_nrounds rd wr tab) (trap_20rounds rd wr tab)). Qed.
Print Assumptions C50_armv7m_unaligned_refuted.

(* ---- C50: the byte functions, the same text in both files ---- *)

Theorem C50_static_initialize una rd wr tab :
  call una rd wr tab armv7m_s StaticInitialize (fun _ => True) (fun m m' => untouched m m' []) /\
  call una rd wr tab armv6m_s StaticInitialize (fun _ => True) (fun m m' => untouched m m' []).
Proof. exact (conj (static_ok una rd wr tab (zeroes7 ++ perm7)) (static_ok una rd wr tab (zeroes6 ++ perm6))). Qed.
Print Assumptions C50_static_initialize.

Theorem C50_initialize una rd wr tab s c : c = armv7m_s \/ c = armv6m_s -> s mod 4 = 0 -> s + 50 < 2 ^ 32 -> ok wr s 50 ->
  call una rd wr tab c Initialize (fun m => rf m 0%nat = s) (fun m m' => bytes_at m' s 50 = repeat 0 50 /\ untouched m m' [(s, 50)]).
Proof. intros [-> | ->]; [exact (init_ok una rd wr tab (zeroes7 ++ perm7) s)|exact (init_ok una rd wr tab (zeroes6 ++ perm6) s)]. Qed.
Print Assumptions C50_initialize.

Theorem C50_add_byte una rd wr tab s off c : c = armv7m_s \/ c = armv6m_s -> s + off < 2 ^ 32 -> ok rd (s + off) 1 -> ok wr (s + off) 1 ->
  call una rd wr tab c AddByte (fun m => rf m 0%nat = s /\ rf m 2%nat = off)
    (fun m m' => me m' (s + off) = N.lxor (me m (s + off)) (rf m 1%nat mod 256) /\ untouched m m' [(s + off, 1)]).
Proof. intros [-> | ->]; [exact (addbyte_ok una rd wr tab (zeroes7 ++ perm7) s off)|exact (addbyte_ok una rd wr tab (zeroes6 ++ perm6) s off)]. Qed.
Print Assumptions C50_add_byte.

Theorem C50_add_bytes una rd wr tab s off d sp len c : c = armv7m_s \/ c = armv6m_s ->
  s + off + N.of_nat len < 2 ^ 32 -> d + N.of_nat len < 2 ^ 32 -> sp mod 4 = 0 -> 8 <= sp -> sp < 2 ^ 32 ->
  ok rd (s + off) (N.of_nat len) -> ok wr (s + off) (N.of_nat len) -> ok rd d (N.of_nat len) -> ok rd (sp - 8) 8 -> ok wr (sp - 8) 8 ->
  apart d (N.of_nat len) (s + off) (N.of_nat len) -> apart d (N.of_nat len) (sp - 8) 8 -> apart (s + off) (N.of_nat len) (sp - 8) 8 ->
  call una rd wr tab c AddBytes (fun m => rf m 0%nat = s /\ rf m 1%nat = d /\ rf m 2%nat = off /\ rf m 3%nat = N.of_nat len /\ rf m 13%nat = sp)
    (fun m m' => (forall i, (i < len)%nat -> me m' (s + off + N.of_nat i) = N.lxor (me m (s + off + N.of_nat i)) (me m (d + N.of_nat i))) /\
                 untouched m m' [(s + off, N.of_nat len); (sp - 8, 8)]).
Proof. intros [-> | ->]; [exact (addbytes_ok una rd wr tab (zeroes7 ++ perm7) s off d sp len)|exact (addbytes_ok una rd wr tab (zeroes6 ++ perm6) s off d sp len)]. Qed.
Print Assumptions C50_add_bytes.

Theorem C50_overwrite_bytes una rd wr tab s off d len c : c = armv7m_s \/ c = armv6m_s ->
  s + off + N.of_nat len < 2 ^ 32 -> d + N.of_nat len < 2 ^ 32 ->
  ok rd d (N.of_nat len) -> ok wr (s + off) (N.of_nat len) -> apart d (N.of_nat len) (s + off) (N.of_nat len) ->
  call una rd wr tab c OverwriteBytes (fun m => rf m 0%nat = s /\ rf m 1%nat = d /\ rf m 2%nat = off /\ rf m 3%nat = N.of_nat len)
    (fun m m' => bytes_at m' (s + off) len = bytes_at m d len /\ untouched m m' [(s + off, N.of_nat len)]).
Proof. intros [-> | ->]; [exact (overwrite_ok una rd wr tab (zeroes7 ++ perm7) s off d len)|exact (overwrite_ok una rd wr tab (zeroes6 ++ perm6) s off d len)]. Qed.
Print Assumptions C50_overwrite_bytes.

Theorem C50_extract_bytes una rd wr tab s off d len c : c = armv7m_s \/ c = armv6m_s ->
  s + off + N.of_nat len < 2 ^ 32 -> d + N.of_nat len < 2 ^ 32 ->
  ok rd (s + off) (N.of_nat len) -> ok wr d (N.of_nat len) -> apart (s + off) (N.of_nat len) d (N.of_nat len) ->
  call una rd wr tab c ExtractBytes (fun m => rf m 0%nat = s /\ rf m 1%nat = d /\ rf m 2%nat = off /\ rf m 3%nat = N.of_nat len)
    (fun m m' => bytes_at m' d len = bytes_at m (s + off) len /\ untouched m m' [(d, N.of_nat len)]).
Proof. intros [-> | ->]; [exact (extract_ok una rd wr tab (zeroes7 ++ perm7) s off d len)|exact (extract_ok una rd wr tab (zeroes6 ++ perm6) s off d len)]. Qed.
Print Assumptions C50_extract_bytes.

(* The fifth argument, the length, is on the stack. The output may be the input. *)
Theorem C50_extract_and_add_bytes una rd wr tab s off d o sp len c : c = armv7m_s \/ c = armv6m_s ->
  s + off + N.of_nat len < 2 ^ 32 -> d + N.of_nat len < 2 ^ 32 -> o + N.of_nat len < 2 ^ 32 -> sp mod 4 = 0 -> 8 <= sp -> sp + 4 < 2 ^ 32 ->
  ok rd (s + off) (N.of_nat len) -> ok rd d (N.of_nat len) -> ok wr o (N.of_nat len) -> ok rd (sp - 8) 12 -> ok wr (sp - 8) 8 ->
  apart (s + off) (N.of_nat len) o (N.of_nat len) -> d = o \/ apart d (N.of_nat len) o (N.of_nat len) ->
  apart d (N.of_nat len) (sp - 8) 8 -> apart (s + off) (N.of_nat len) (sp - 8) 8 -> apart o (N.of_nat len) (sp - 8) 8 ->
  call una rd wr tab c ExtractAndAddBytes
    (fun m => rf m 0%nat = s /\ rf m 1%nat = d /\ rf m 2%nat = o /\ rf m 3%nat = off /\ rf m 13%nat = sp /\ bytes_at m sp 4 = word_le 4 (N.of_nat len))
    (fun m m' => (forall i, (i < len)%nat -> me m' (o + N.of_nat i) = N.lxor (me m (s + off + N.of_nat i)) (me m (d + N.of_nat i))) /\
                 untouched m m' [(o, N.of_nat len); (sp - 8, 8)]).
Proof. intros [-> | ->]; [exact (extadd_ok una rd wr tab (zeroes7 ++ perm7) s off d o sp len)|exact (extadd_ok una rd wr tab (zeroes6 ++ perm6) s off d o sp len)]. Qed.
Print Assumptions C50_extract_and_add_bytes.

(* armv7m writes words: aligned, or on a core that accepts unaligned ones. armv6m writes bytes. *)
Theorem C50_armv7m_overwrite_with_zeroes una rd wr tab s n : s + N.of_nat n < 2 ^ 32 -> ok wr s (N.of_nat n) -> una = true \/ s mod 4 = 0 ->
  call una rd wr tab armv7m_s OverwriteWithZeroes (fun m => rf m 0%nat = s /\ rf m 1%nat = N.of_nat n)
    (fun m m' => bytes_at m' s n = repeat 0 n /\ untouched m m' [(s, N.of_nat n)]).
Proof. exact (zeroes7_ok una rd wr tab s n). Qed.
Print Assumptions C50_armv7m_overwrite_with_zeroes.

Theorem C50_armv6m_overwrite_with_zeroes una rd wr tab s n : s + N.of_nat n < 2 ^ 32 -> ok wr s (N.of_nat n) ->
  call una rd wr tab armv6m_s OverwriteWithZeroes (fun m => rf m 0%nat = s /\ rf m 1%nat = N.of_nat n)
    (fun m m' => bytes_at m' s n = repeat 0 n /\ untouched m m' [(s, N.of_nat n)]).
Proof. exact (zeroes6_ok una rd wr tab s n). Qed.
Print Assumptions C50_armv6m_overwrite_with_zeroes.
