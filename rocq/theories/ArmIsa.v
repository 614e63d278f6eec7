(* A machine for the instructions that occur in KeccakP-400-armv7m-le-gcc.s and KeccakP-400-armv6m-le-gcc.s (crypto_aead/isapk128av20 and
   crypto_aead/isapk128v20, directories opt_32_armv7m and opt_32_armv6m). Definitions only. The programs are in ArmAsm.v.
   State: registers r0-r12, sp = r13, lr = r14 (32 bits each), the flags Z and C (N and V are never read), 2^32 bytes of memory, and the list of
   what an observer of addresses and branches sees. The program counter is a position in a list of basic blocks: the code itself is not in memory,
   only the table of round constants between the functions is.
   An access outside the bytes that may be read (rd) or written (wr) is a fault, and so is a word access by ldm, stm, push, pop at an address that
   is no multiple of 4. una: ldr, ldrh, str, strh accept every address (armv7m with CCR.UNALIGN_TRP = 0); otherwise a misaligned one is a fault. *)
From Verif Require Import Base Prog SpecPerm.
Open Scope N_scope.

Definition w32 (x : N) : N := x mod 2 ^ 32.

Inductive event := Ld (a : N) (n : nat) | St (a : N) (n : nat) | In (block : nat).

Record mc := Mc { rf : nat -> N; fz : bool; fc : bool; me : N -> N; tc : list event }.

Definition set {B} (f : nat -> B) (k : nat) (v : B) : nat -> B := fun i => if (i =? k)%nat then v else f i.
Definition setr (m : mc) (d : nat) (v : N) : mc := Mc (set (rf m) d v) (fz m) (fc m) (me m) (tc m).
Definition setf (m : mc) (z c : bool) : mc := Mc (rf m) z c (me m) (tc m).
Definition setm (m : mc) (f : N -> N) : mc := Mc (rf m) (fz m) (fc m) f (tc m).
Definition see (m : mc) (e : event) : mc := Mc (rf m) (fz m) (fc m) (me m) (e :: tc m).

Inductive shift := LSL (n : N) | LSR (n : N) | ROR (n : N).
Inductive op2 := Rg (r : nat) | Sf (r : nat) (s : shift) | Im (c : N).
Inductive dop := DMov | DEor | DAnd | DOrr | DBic | DAdd | DSub.

Inductive instr :=
| IDp (s : bool) (o : dop) (d n : nat) (x : op2)     (* data processing; s: sets the flags; mov ignores n *)
| ICmp (n : nat) (x : op2)
| IRorR (d m : nat)                                  (* rors d, d, m: by the number in register m, here below 32 *)
| IUxth (d : nat) (x : op2) | ISxth (d m : nat) | IRev16 (d m : nat)
| IBfi16 (d m : nat)                                 (* bfi d, m, #16, #16 *)
| ILdr (n : nat) (d b : nat) (off : N)               (* ldr (n=4), ldrh (n=2) d, [b, #off] *)
| IStr (n : nat) (s b : nat) (off : N)
| ILdrbR (d b i : nat) | IStrbR (s b i : nat)        (* ldrb d, [b, i] *)
| ILdrP (n : nat) (d b : nat) (off : N)              (* ldrh d, [b], #off: afterwards b += off *)
| IStrP (n : nat) (s b : nat) (off : N)
| ILdm (b : nat) (ds : list nat)                     (* ldm b!, {ds} *)
| IStm (b : nat) (ds : list nat)
| IPush (ds : list nat) | IPop (ds : list nat)       (* the registers in ascending order *)
| IAdr (d : nat) (off : N).                          (* adr: the address off bytes behind the start of the table of constants *)

Section Machine.
  Variables (una : bool) (rd wr : N -> bool) (tab : N).

  Definition addrs (a : N) (n : nat) : list N := map (fun i => w32 (a + N.of_nat i)) (seq 0 n).
  Definition load (al : N) (n : nat) (a : N) (m : mc) : option (N * mc) :=
    if (a mod al =? 0) && forallb rd (addrs a n) then Some (le_word (map (me m) (addrs a n)), see m (Ld a n)) else None.
  Definition put (f : N -> N) (p : N * N) : N -> N := fun a => if a =? fst p then snd p else f a.
  Definition store (al : N) (n : nat) (a v : N) (m : mc) : option mc :=
    if (a mod al =? 0) && forallb wr (addrs a n) then Some (see (setm m (fold_left put (combine (addrs a n) (word_le n v)) (me m))) (St a n)) else None.
  (* what ldr and ldrh, str and strh ask of the address *)
  Definition al (n : nat) : N := if una then 1 else N.of_nat n.

  (* second operand: value and carry of the shifter *)
  Definition shifted (v : N) (s : shift) : N * bool :=
    match s with
    | LSL n => (w32 (N.shiftl v n), N.testbit v (32 - n))
    | LSR n => (N.shiftr v n, N.testbit v (n - 1))
    | ROR n => (N.lor (N.shiftr v n) (w32 (N.shiftl v (32 - n))), N.testbit v (n - 1))
    end.
  Definition opnd (m : mc) (x : op2) : N * bool :=
    match x with Rg r => (rf m r, fc m) | Sf r s => shifted (rf m r) s | Im c => (c, fc m) end.
  Definition alu (o : dop) (a b : N) (c : bool) : N * bool :=
    match o with
    | DMov => (b, c)
    | DEor => (N.lxor a b, c)
    | DAnd => (N.land a b, c)
    | DOrr => (N.lor a b, c)
    | DBic => (N.land a (2 ^ 32 - 1 - b), c)
    | DAdd => (w32 (a + b), 2 ^ 32 <=? a + b)
    | DSub => (w32 (a + 2 ^ 32 - b), b <=? a)
    end.

  Fixpoint ldms (ds : list nat) (a : N) (m : mc) : option mc :=
    match ds with
    | [] => Some m
    | d :: t => match load 4 4 a m with Some (v, m) => ldms t (w32 (a + 4)) (setr m d v) | None => None end
    end.
  Fixpoint stms (ds : list nat) (a : N) (m : mc) : option mc :=
    match ds with
    | [] => Some m
    | d :: t => match store 4 4 a (rf m d) m with Some m => stms t (w32 (a + 4)) m | None => None end
    end.
  Definition words (ds : list nat) : N := 4 * N.of_nat (length ds).
  Definition optmap {A B} (f : A -> B) (x : option A) : option B := match x with Some a => Some (f a) | None => None end.

  Definition run1 (i : instr) (m : mc) : option mc :=
    match i with
    | IDp s o d n x =>
      let '(b, c) := opnd m x in
      let '(v, c) := alu o (rf m n) b c in
      let m := setr m d v in
      Some (if s then setf m (v =? 0) c else m)
    | ICmp n x =>
      let '(b, c) := opnd m x in
      let '(v, c) := alu DSub (rf m n) b c in
      Some (setf m (v =? 0) c)
    | IRorR d r =>
      let '(v, c) := shifted (rf m d) (ROR (rf m r)) in
      Some (setf (setr m d v) (v =? 0) c)
    | IUxth d x => Some (setr m d (fst (opnd m x) mod 2 ^ 16))
    | ISxth d r => let v := rf m r mod 2 ^ 16 in Some (setr m d (if v <? 2 ^ 15 then v else v + (2 ^ 32 - 2 ^ 16)))
    | IRev16 d r => Some (setr m d (match word_le 4 (rf m r) with [a; b; c; e] => le_word [b; a; e; c] | _ => 0 end))
    | IBfi16 d r => Some (setr m d (rf m d mod 2 ^ 16 + 2 ^ 16 * (rf m r mod 2 ^ 16)))
    | ILdr n d b off => match load (al n) n (w32 (rf m b + off)) m with Some (v, m) => Some (setr m d v) | None => None end
    | IStr n s b off => store (al n) n (w32 (rf m b + off)) (rf m s) m
    | ILdrbR d b i => match load 1 1 (w32 (rf m b + rf m i)) m with Some (v, m) => Some (setr m d v) | None => None end
    | IStrbR s b i => store 1 1 (w32 (rf m b + rf m i)) (rf m s) m
    | ILdrP n d b off =>
      match load (al n) n (rf m b) m with Some (v, m) => Some (setr (setr m b (w32 (rf m b + off))) d v) | None => None end
    | IStrP n s b off =>
      match store (al n) n (rf m b) (rf m s) m with Some m => Some (setr m b (w32 (rf m b + off))) | None => None end
    | ILdm b ds => optmap (fun m' => setr m' b (w32 (rf m b + words ds))) (ldms ds (rf m b) m)
    | IStm b ds => optmap (fun m' => setr m' b (w32 (rf m b + words ds))) (stms ds (rf m b) m)
    | IPush ds =>
      let sp := w32 (rf m 13%nat + 2 ^ 32 - words ds) in
      optmap (fun m' => setr m' 13 sp) (stms ds sp m)
    | IPop ds => optmap (fun m' => setr m' 13 (w32 (rf m 13%nat + words ds))) (ldms ds (rf m 13%nat) m)
    | IAdr d off => Some (setr m d (w32 (tab + off)))
    end.

  Fixpoint runs_is (is : list instr) (m : mc) : option mc :=
    match is with
    | [] => Some m
    | i :: is => match run1 i m with Some m => runs_is is m | None => None end
    end.

  (* How a basic block ends. CC, CS: carry clear, set; EQ, NE: Z set, clear. Br c l l': branch to l when c holds, else continue with l'. *)
  Inductive cond := EQ | NE | CC | CS.
  Inductive term := Jmp (l : nat) | Br (c : cond) (l l' : nat) | BxLr | PopPc (ds : list nat).
  Definition code := list (list instr * term).
  Definition holds (c : cond) (m : mc) : bool :=
    match c with EQ => fz m | NE => negb (fz m) | CC => negb (fc m) | CS => fc m end.

  (* Back a m: the function has branched to the address a. More: not finished. *)
  Inductive outcome := Back (a : N) (m : mc) | Fault | More.
  Fixpoint exec (fuel : nat) (c : code) (l : nat) (m : mc) : outcome :=
    match fuel with
    | O => More
    | S fuel =>
      match nth_error c l with
      | None => Fault
      | Some (is, t) =>
        match runs_is is (see m (In l)) with
        | None => Fault
        | Some m =>
          match t with
          | Jmp l => exec fuel c l m
          | Br b l l' => exec fuel c (if holds b m then l else l') m
          | BxLr => Back (rf m 14%nat) m
          | PopPc ds =>                                  (* pop {ds, pc} *)
            match run1 (IPop ds) m with
            | None => Fault
            | Some m => match load 4 4 (rf m 13%nat) m with
                        | None => Fault
                        | Some (a, m) => Back a (setr m 13 (w32 (rf m 13%nat + 4)))
                        end
            end
          end
        end
      end
    end.
End Machine.
